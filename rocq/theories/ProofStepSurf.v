(** The lines of an exported surface. *)
From Coq Require Import String Ascii List ZArith QArith Qcanon Bool Lia.
From Verif Require Import Base BaseFacts LoopFacts ModelVec ModelNurbs ModelMemView ModelSurface ModelStep SpecNurbs SpecStep ProofRefineMisc ProofStep.
Import ListNotations.
Open Scope Z_scope.

Lemma Forall2_weaken {A B} (R S : A -> B -> Prop) l m : (forall a b, R a b -> S a b) -> Forall2 R l m -> Forall2 S l m.
Proof. intros H. induction 1; constructor; auto. Qed.
Definition cart (q : vec4) : res vec3 := x <- qdiv (wx q) (ww q) ;; y <- qdiv (wy q) (ww q) ;; z <- qdiv (wz q) (ww q) ;; Ok (V3 x y z).
Definition shows (l : line) (q : vec4) : Prop := exists p, cart q = Ok p /\ snd l = point_text (vx p) (vy p) (vz p).

Lemma surface_row_adds P : forall st ids st', surface_row P st = Ok (ids, st') ->
  exists new, adds st st' new /\ List.length new = List.length P /\ ids = map fst new /\ Forall2 shows new P.
Proof.
  induction P as [|q P IH]; intros st ids st'; cbn [surface_row].
  - intros [= <- <-]. exists []. split; [apply adds_nil|]. repeat split. constructor.
  - intros E. apply bind_inv in E as (x & Ex & E). apply bind_inv in E as (y & Ey & E). apply bind_inv in E as (z & Ez & E).
    apply bind_inv in E as ([i s1] & E1 & E). apply bind_inv in E as ([is' s2] & E2 & E). injection E as <- <-.
    apply adds_one in E1 as (-> & A1). destruct (IH _ _ _ E2) as (new & A2 & L & -> & F).
    exists ((fst st, point_text x y z) :: new). split; [exact (adds_app _ _ _ _ _ A1 A2)|]. cbn [List.length map fst]. repeat split; [lia|]. constructor; [|exact F].
    exists (V3 x y z). split; [unfold cart; rewrite Ex, Ey, Ez; reflexivity|reflexivity].
Qed.
Lemma surface_rows_adds P : forall st ids st', surface_rows P st = Ok (ids, st') ->
  exists news, adds st st' (concat news) /\ ids = map (map fst) news /\ Forall2 (Forall2 shows) news P.
Proof.
  induction P as [|q P IH]; intros st ids st'; cbn [surface_rows].
  - intros [= <- <-]. exists []. split; [apply adds_nil|]. repeat split. constructor.
  - intros E. apply bind_inv in E as ([i s1] & E1 & E). apply bind_inv in E as ([is' s2] & E2 & E). injection E as <- <-.
    destruct (surface_row_adds _ _ _ _ E1) as (n1 & A1 & L1 & -> & F1). destruct (IH _ _ _ E2) as (new & A2 & -> & F).
    exists (n1 :: new). split; [exact (adds_app _ _ _ _ _ A1 A2)|]. split; [reflexivity|]. constructor; assumption.
Qed.
Lemma shows_fine lo hi l q : shows l q -> within lo hi l /\ closed_line l.
Proof. intros (p & _ & E). split; [intros r Hr; rewrite E, point_refs in Hr; destruct Hr|]. unfold closed_line. rewrite E. apply neutral_closed, point_closed. Qed.
Lemma rows_fine lo hi news P : Forall2 (Forall2 shows) news P -> fine lo hi (concat news).
Proof.
  induction 1 as [|n1 row news P F _ IH]; [constructor|]. cbn [concat]. apply fine_app; [|exact IH]. clear IH. induction F; constructor; [eapply shows_fine; eassumption|assumption].
Qed.

Lemma curves_adds cs : forall st ids st', curves cs st = Ok (ids, st') ->
  exists blocks, adds st st' (concat blocks) /\ Forall2 (fun c b => exists id0, curve_block c id0 b /\ fst st <= id0 /\ id0 + Z.of_nat (List.length b) <= fst st') cs blocks /\
    Forall2 (fun i b => exists l, last b (0, []) = l /\ fst l = i) ids blocks /\ List.length ids = List.length cs.
Proof.
  induction cs as [|c cs IH]; intros st ids st'; cbn [curves].
  - intros [= <- <-]. exists []. split; [apply adds_nil|]. repeat split; constructor.
  - intros E. apply bind_inv in E as ([i s1] & E1 & E). apply bind_inv in E as ([is' s2] & E2 & E). injection E as <- <-.
    destruct (nc_step_adds _ _ _ _ E1) as (n1 & A1 & Ei & B & L). destruct (IH _ _ _ E2) as (bl & A2 & F & G & L').
    assert (fst s1 = fst st + Z.of_nat (List.length n1)) as E1' by (destruct A1 as [-> _]; reflexivity).
    assert (fst s2 = fst s1 + Z.of_nat (List.length (concat bl))) as E2' by (destruct A2 as [-> _]; reflexivity).
    exists (n1 :: bl). split; [exact (adds_app _ _ _ _ _ A1 A2)|]. split; [|split; [|cbn; lia]].
    + constructor; [exists (fst st); split; [exact B|lia]|]. eapply Forall2_weaken; [|exact F]. intros c' b (id0 & ? & ? & ?). exists id0. split; [assumption|lia].
    + constructor; [|exact G]. destruct B as (pts & -> & F' & _). rewrite last_last. eexists. split; [reflexivity|]. cbn [fst].
      rewrite Ei. f_equal. f_equal. rewrite app_length in L. cbn in L. lia.
Qed.
Lemma blocks_fine lo hi cs blocks : Forall2 (fun c b => exists id0, curve_block c id0 b /\ lo <= id0 /\ id0 + Z.of_nat (List.length b) <= hi) cs blocks -> fine lo hi (concat blocks).
Proof.
  induction 1 as [|c b cs bl (id0 & B & H1 & H2) _ IH]; [constructor|]. cbn [concat]. apply fine_app; [|exact IH]. exact (fine_weaken _ _ lo hi _ H1 H2 (curve_block_fine _ _ _ B)).
Qed.

(** ** corners *)
Definition corner (i : nat) (c : ncurve) : res vec3 := evaluate c (if Nat.ltb i 2 then fst (nc_interval c) else snd (nc_interval c)).
Fixpoint corner_lines (id : Z) (ps : list vec3) : list line :=
  match ps with
  | [] => []
  | p :: t => (id, point_text (vx p) (vy p) (vz p)) :: (id + 1, txt "VERTEX_POINT('', " ++ Ref id :: txt ")") :: corner_lines (id + 1 + 1) t
  end.
Fixpoint corner_ids (id : Z) (ps : list vec3) : list Z :=
  match ps with [] => [] | p :: t => (id + 1) :: corner_ids (id + 1 + 1) t end.
Fixpoint corners (i : nat) (cs : list ncurve) : res (list vec3) :=
  match cs with [] => Ok [] | c :: t => p <- corner i c ;; r <- corners (S i) t ;; Ok (p :: r) end.
Lemma vertices_adds cs : forall i st ids st', vertices i cs st = Ok (ids, st') ->
  exists ps, corners i cs = Ok ps /\ adds st st' (corner_lines (fst st) ps) /\ ids = corner_ids (fst st) ps.
Proof.
  induction cs as [|c cs IH]; intros i st ids st'; cbn [vertices].
  - intros [= <- <-]. exists []. split; [reflexivity|]. split; [apply adds_nil|]. reflexivity.
  - intros E. apply bind_inv in E as (p & Ep & E). apply bind_inv in E as ([i1 s1] & E1 & E). apply bind_inv in E as ([i2 s2] & E2 & E). apply bind_inv in E as ([is' s3] & E3 & E). injection E as <- <-.
    apply adds_one in E1 as (-> & A1). apply adds_one in E2 as (-> & A2). destruct (IH _ _ _ _ E3) as (ps & C & A3 & ->).
    assert (fst s1 = fst st + 1) as Es1 by (destruct A1 as [-> _]; reflexivity). assert (fst s2 = fst st + 1 + 1) as Es2 by (destruct A2 as [-> _]; cbn [fst]; rewrite Es1; reflexivity).
    rewrite Es2 in A3. rewrite Es1 in A2. exists (p :: ps). cbn [corners corner_lines corner_ids]. unfold corner at 1. rewrite Ep. cbn [bind]. rewrite C. cbn [bind]. split; [reflexivity|].
    split; [exact (adds_app _ _ _ _ _ A1 (adds_app _ _ _ _ _ A2 A3))|rewrite Es1, Es2; reflexivity].
Qed.

(** ** the rest *)
Definition tail_lines (k bs c0 c1 c2 c3 v0 v1 v2 v3 : Z) : list line :=
  let e0 := k in let e1 := e0 + 1 in let e2 := e1 + 1 in let e3 := e2 + 1 in
  let loop := e3 + 1 in let bound := loop + 1 in let face := bound + 1 in let shell := face + 1 in let model := shell + 1 in
  let rgb := model + 1 in let fac := rgb + 1 in let fas := fac + 1 in let ssf := fas + 1 in let sss := ssf + 1 in let ssu := sss + 1 in
  let rep := ssu + 1 in let sty := rep + 1 in let psa := sty + 1 in let pla := psa + 1 in let prod := pla + 1 in
  let pdc := prod + 1 in let pd := pdc + 1 in let pdf := pd + 1 in let cat := pdf + 1 in let apd := cat + 1 in
  let ac := apd + 1 in let pc := ac + 1 in let pf := pc + 1 in let srr := pf + 1 in
  [(e0, edge v0 v1 c0 0); (e1, edge v1 v2 c1 0); (e2, edge v2 v3 c2 0); (e3, edge v3 v0 c3 0);
   (loop, txt "EDGE_LOOP('', (" ++ commas [[Ref e0]; [Ref e1]; [Ref e2]; [Ref e3]] ++ txt "))");
   (bound, txt "FACE_OUTER_BOUND('', " ++ Ref loop :: txt ", .T.)");
   (face, txt "ADVANCED_FACE('', (" ++ Ref bound :: txt "), " ++ Ref bs :: txt ", .T.)");
   (shell, txt "OPEN_SHELL('', (" ++ Ref face :: txt "))");
   (model, txt "SHELL_BASED_SURFACE_MODEL('shell_1', (" ++ Ref shell :: txt "))");
   (rgb, txt "COLOUR_RGB('', 0., 0., 0.)");
   (fac, txt "FILL_AREA_STYLE_COLOUR('', " ++ Ref rgb :: txt ")");
   (fas, txt "FILL_AREA_STYLE('', (" ++ Ref fac :: txt "))");
   (ssf, txt "SURFACE_STYLE_FILL_AREA(" ++ Ref fas :: txt ")");
   (sss, txt "SURFACE_SIDE_STYLE('', (" ++ Ref ssf :: txt "), .F.)");
   (ssu, txt "SURFACE_STYLE_USAGE(.BOTH., " ++ Ref sss :: txt ")");
   (rep, txt "MECHANICAL_DESIGN_GEOMETRIC_PRESENTATION_REPRESENTATION('', (" ++ Ref face :: txt "), " ++ Ref bs :: txt ")");
   (sty, txt "STYLED_ITEM('', (" ++ Ref ssu :: txt "), " ++ Ref rep :: txt ")");
   (psa, txt "PRESENTATION_STYLE_ASSIGNMENT((" ++ Ref sty :: txt "))");
   (pla, txt "PRESENTATION_LAYER_ASSIGNMENT('Default','', (" ++ Ref sty :: txt "))");
   (prod, txt "PRODUCT('Document','Document','', (" ++ Ref pla :: txt "))");
   (pdc, txt "PRODUCT_DEFINITION_CONTEXT('3D Mechanical Parts', " ++ Ref (pdc + 1 + 1) :: txt ", 'design')");
   (pd, txt "PRODUCT_DEFINITION('A','First version', " ++ Ref (pd + 1 + 1) :: txt ", " ++ Ref pdc :: txt ")");
   (pdf, txt "PRODUCT_DEFINITION_FORMATION_WITH_SPECIFIED_SOURCE('A', 'First version', " ++ Ref (pdf + 1 + 1) :: txt ", .MADE.)");
   (cat, txt "PRODUCT_RELATED_PRODUCT_CATEGORY('tool','tool', (" ++ Ref pdf :: txt ")");
   (apd, txt "APPLICATION_PROTOCOL_DEFINITION('Draft International Standard', 'automotive_design', 1999, " ++ Ref (apd + 1 + 1) :: txt ")");
   (ac, txt "APPLICATION_CONTEXT('data for automotive mechanical design processes')");
   (pc, txt "PRODUCT_CONTEXT('3D Mechanical Parts', " ++ Ref ac :: txt ", 'mechanical')");
   (pf, txt "PRODUCT('Document','Document','', (" ++ Ref pc :: txt "))");
   (srr, txt "SHAPE_REPRESENTATION_RELATIONSHIP('', '', " ++ Ref rep :: txt ", " ++ Ref pf :: txt ")")].

Definition surface_text (s : nsurf) (P : list (list vec4)) (ids : list (list Z)) : text :=
  let '(mu, ku) := knots_text (ns_ku s) in
  let '(mv, kv) := knots_text (ns_kv s) in
  txt "RATIONAL_B_SPLINE_SURFACE_WITH_KNOTS('', "
     ++ Int (Z.of_nat (ns_du s)) :: txt ", " ++ Int (Z.of_nat (ns_dv s)) :: txt ", "
     ++ bracket (map (fun row => bracket (map (fun id => [Ref id]) row)) ids)
     ++ txt ", .UNSPECIFIED., .F., .F., .F., " ++ mu ++ txt ", " ++ ku ++ txt ", " ++ mv ++ txt ", " ++ kv
     ++ txt ", .UNSPECIFIED., " ++ bracket (map (fun row => bracket (map (fun q => [Num (ww q)]) row)) P) ++ txt ")".

(** all lines of the export *)
Definition export (s : nsurf) (id : Z) (new : list line) (bs : Z) : Prop :=
  exists P news bnd blocks ps c0 c1 c2 c3 v0 v1 v2 v3,
    used s = Ok P /\ Forall2 (Forall2 shows) news P /\ map fst (concat news) = from id (List.length (concat news)) /\
    bs = id + Z.of_nat (List.length (concat news)) /\
    ns_boundaries s = Ok bnd /\
    Forall2 (fun c b => exists id0, curve_block c id0 b /\ bs + 1 <= id0 /\ id0 + Z.of_nat (List.length b) <= bs + 1 + Z.of_nat (List.length (concat blocks))) bnd blocks /\
    Forall2 (fun i b => exists l, last b (0, []) = l /\ fst l = i) [c0; c1; c2; c3] blocks /\
    corners 0 bnd = Ok ps /\
    let k := bs + 1 + Z.of_nat (List.length (concat blocks)) in
    corner_ids k ps = [v0; v1; v2; v3] /\
    new = concat news ++ [(bs, surface_text s P (map (map fst) news))] ++ concat blocks ++ corner_lines k ps ++
          tail_lines (k + Z.of_nat (List.length (corner_lines k ps))) bs c0 c1 c2 c3 v0 v1 v2 v3.

Lemma get_list4 (l : list Z) a b c d : get l 0 = Ok a -> get l 1 = Ok b -> get l 2 = Ok c -> get l 3 = Ok d -> exists t, l = a :: b :: c :: d :: t.
Proof. destruct l as [|x [|y [|z [|w t]]]]; cbn; try discriminate. intros [= <-] [= <-] [= <-] [= <-]. eexists. reflexivity. Qed.

Lemma boundaries_four s bnd : ns_boundaries s = Ok bnd -> List.length bnd = 4%nat.
Proof. unfold ns_boundaries. intros E. do 4 (apply bind_inv in E as (? & _ & E)). injection E as <-. reflexivity. Qed.
Lemma corners_length cs : forall i ps, corners i cs = Ok ps -> List.length ps = List.length cs.
Proof. induction cs as [|c cs IH]; intros i ps; cbn [corners]; [intros [= <-]; reflexivity|]. intros E. apply bind_inv in E as (p & _ & E). apply bind_inv in E as (r & Er & E). injection E as <-. cbn. f_equal. eauto. Qed.
Lemma corner_ids_length ps : forall k, List.length (corner_ids k ps) = List.length ps.
Proof. induction ps; intros; cbn; auto. Qed.

Ltac next E A := let i := fresh "i" in let st := fresh "s" in let X := fresh in
  apply bind_inv in E as ([i st] & X & E); apply adds_one in X as (-> & A).

Lemma pair_ok {A B} (a c : A) (b d : B) : Ok (a, b) = Ok (c, d) -> a = c /\ b = d.
Proof. intros E. split; congruence. Qed.
Lemma emit_bind {A} body k out (F : Z * sink -> res A) r : bind (emit body (k, out)) F = Ok r ->
  exists l, l = (k, body (k + 1)) /\ F (k, (k + 1, out ++ [l])) = Ok r.
Proof. intros E. apply bind_inv in E as ([i st] & X & E). apply emit_inv in X as (-> & ->). eexists. split; [reflexivity|exact E]. Qed.

Lemma tail_adds st st' bs bs' c0 c1 c2 c3 v0 v1 v2 v3 :
  ('(e0, st) <- emit (edge v0 v1 c0) st ;;
  '(e1, st) <- emit (edge v1 v2 c1) st ;;
  '(e2, st) <- emit (edge v2 v3 c2) st ;;
  '(e3, st) <- emit (edge v3 v0 c3) st ;;
  '(loop, st) <- emit (fun _ => txt "EDGE_LOOP('', (" ++ commas [[Ref e0]; [Ref e1]; [Ref e2]; [Ref e3]] ++ txt "))") st ;;
  '(bound, st) <- emit (fun _ => txt "FACE_OUTER_BOUND('', " ++ Ref loop :: txt ", .T.)") st ;;
  '(face, st) <- emit (fun _ => txt "ADVANCED_FACE('', (" ++ Ref bound :: txt "), " ++ Ref bs :: txt ", .T.)") st ;;
  '(shell, st) <- emit (fun _ => txt "OPEN_SHELL('', (" ++ Ref face :: txt "))") st ;;
  '(_, st) <- emit (fun _ => txt "SHELL_BASED_SURFACE_MODEL('shell_1', (" ++ Ref shell :: txt "))") st ;;
  '(rgb, st) <- emit (fun _ => txt "COLOUR_RGB('', 0., 0., 0.)") st ;;
  '(fac, st) <- emit (fun _ => txt "FILL_AREA_STYLE_COLOUR('', " ++ Ref rgb :: txt ")") st ;;
  '(fas, st) <- emit (fun _ => txt "FILL_AREA_STYLE('', (" ++ Ref fac :: txt "))") st ;;
  '(ssf, st) <- emit (fun _ => txt "SURFACE_STYLE_FILL_AREA(" ++ Ref fas :: txt ")") st ;;
  '(sss, st) <- emit (fun _ => txt "SURFACE_SIDE_STYLE('', (" ++ Ref ssf :: txt "), .F.)") st ;;
  '(ssu, st) <- emit (fun _ => txt "SURFACE_STYLE_USAGE(.BOTH., " ++ Ref sss :: txt ")") st ;;
  '(rep, st) <- emit (fun _ => txt "MECHANICAL_DESIGN_GEOMETRIC_PRESENTATION_REPRESENTATION('', (" ++ Ref face :: txt "), " ++ Ref bs :: txt ")") st ;;
  '(sty, st) <- emit (fun _ => txt "STYLED_ITEM('', (" ++ Ref ssu :: txt "), " ++ Ref rep :: txt ")") st ;;
  '(_, st) <- emit (fun _ => txt "PRESENTATION_STYLE_ASSIGNMENT((" ++ Ref sty :: txt "))") st ;;
  '(pla, st) <- emit (fun _ => txt "PRESENTATION_LAYER_ASSIGNMENT('Default','', (" ++ Ref sty :: txt "))") st ;;
  '(_, st) <- emit (fun _ => txt "PRODUCT('Document','Document','', (" ++ Ref pla :: txt "))") st ;;
  '(pdc, st) <- emit (fun e => txt "PRODUCT_DEFINITION_CONTEXT('3D Mechanical Parts', " ++ Ref (e + 1) :: txt ", 'design')") st ;;
  '(_, st) <- emit (fun e => txt "PRODUCT_DEFINITION('A','First version', " ++ Ref (e + 1) :: txt ", " ++ Ref pdc :: txt ")") st ;;
  '(pdf, st) <- emit (fun e => txt "PRODUCT_DEFINITION_FORMATION_WITH_SPECIFIED_SOURCE('A', 'First version', " ++ Ref (e + 1) :: txt ", .MADE.)") st ;;
  '(_, st) <- emit (fun _ => txt "PRODUCT_RELATED_PRODUCT_CATEGORY('tool','tool', (" ++ Ref pdf :: txt ")") st ;;
  '(_, st) <- emit (fun e => txt "APPLICATION_PROTOCOL_DEFINITION('Draft International Standard', 'automotive_design', 1999, " ++ Ref (e + 1) :: txt ")") st ;;
  '(ac, st) <- emit (fun _ => txt "APPLICATION_CONTEXT('data for automotive mechanical design processes')") st ;;
  '(pc, st) <- emit (fun _ => txt "PRODUCT_CONTEXT('3D Mechanical Parts', " ++ Ref ac :: txt ", 'mechanical')") st ;;
  '(pf, st) <- emit (fun _ => txt "PRODUCT('Document','Document','', (" ++ Ref pc :: txt "))") st ;;
  '(_, st) <- emit (fun _ => txt "SHAPE_REPRESENTATION_RELATIONSHIP('', '', " ++ Ref rep :: txt ", " ++ Ref pf :: txt ")") st ;;
  Ok (bs, st)) = Ok (bs', st') -> bs' = bs /\ adds st st' (tail_lines (fst st) bs c0 c1 c2 c3 v0 v1 v2 v3).
Proof.
  destruct st as [k out]. intros E. cbn [fst].
  do 29 (apply emit_bind in E as (?l & ?El & E)).
  apply pair_ok in E as (<- & <-). split; [reflexivity|]. split; cbn [fst snd].
  - f_equal; [cbn [List.length tail_lines]; lia|]. rewrite <- !app_assoc. cbn [app]. f_equal. subst. reflexivity.
  - clear. unfold tail_lines, from. cbn [List.length map seq fst]. repeat (apply (f_equal2 cons); [lia|]). reflexivity.
Qed.

Lemma ns_step_adds s st bs st' : ns_step s st = Ok (bs, st') -> exists new, adds st st' new /\ export s (fst st) new bs.
Proof.
  intros E. unfold ns_step in E. apply bind_inv in E as (P & EP & E). apply bind_inv in E as ([ids s1] & E1 & E).
  destruct (surface_rows_adds _ _ _ _ E1) as (news & A1 & -> & F1).
  destruct (knots_text (ns_ku s)) as [mu ku] eqn:KU. destruct (knots_text (ns_kv s)) as [mv kv] eqn:KV.
  apply bind_inv in E as ([bs0 s2] & E2 & E). apply adds_one in E2 as (-> & A2).
  apply bind_inv in E as (bnd & EB & E). apply bind_inv in E as ([cids s3] & E3 & E). destruct (curves_adds _ _ _ _ E3) as (blocks & A3 & F3 & G3 & L3).
  apply bind_inv in E as ([vids s4] & E4 & E). destruct (vertices_adds _ _ _ _ _ E4) as (ps & C & A4 & ->).
  do 4 (let X := fresh "Hc" in apply bind_inv in E as (? & X & E)). do 4 (let X := fresh "Hv" in apply bind_inv in E as (? & X & E)).
  destruct (get_list4 _ _ _ _ _ Hc Hc0 Hc1 Hc2) as (tc & ->). destruct (get_list4 _ _ _ _ _ Hv Hv0 Hv1 Hv2) as (tv & EV).
  pose proof (boundaries_four _ _ EB) as L4. assert (tc = []) as -> by (destruct tc; [reflexivity|cbn in L3; lia]).
  pose proof (corners_length _ _ _ C) as LC. assert (tv = []) as -> by (destruct tv; [reflexivity|]; apply (f_equal (@List.length Z)) in EV; rewrite corner_ids_length in EV; cbn in EV; lia).
  apply tail_adds in E as (-> & A5).
  assert (fst s1 = fst st + Z.of_nat (List.length (concat news))) as Q1 by (destruct A1 as [-> _]; reflexivity).
  assert (fst s2 = fst s1 + 1) as Q2 by (destruct A2 as [-> _]; reflexivity).
  assert (fst s3 = fst s2 + Z.of_nat (List.length (concat blocks))) as Q3 by (destruct A3 as [-> _]; reflexivity).
  assert (fst s4 = fst s3 + Z.of_nat (List.length (corner_lines (fst s3) ps))) as Q4 by (destruct A4 as [-> _]; reflexivity).
  eexists. split; [exact (adds_app _ _ _ _ _ A1 (adds_app _ _ _ _ _ A2 (adds_app _ _ _ _ _ A3 (adds_app _ _ _ _ _ A4 A5))))|].
  exists P, news, bnd, blocks, ps. do 8 eexists. split; [exact EP|]. split; [exact F1|]. split; [destruct A1 as [_ A1]; exact A1|]. split; [exact Q1|].
  split; [exact EB|]. split; [rewrite Q3, Q2 in F3; exact F3|]. split; [exact G3|]. split; [exact C|]. cbv zeta. rewrite <- Q2, <- Q3, <- Q4. split; [exact EV|].
  unfold surface_text. rewrite KU, KV. reflexivity.
Qed.
