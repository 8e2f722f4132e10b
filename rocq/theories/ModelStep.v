(** STEP export of curves and surfaces: nurbs.h:661-703 and nurbs.h:1282-1528.

    The text is a list of characters, numbers and references; how a number is turned
    into digits is [shown]. A line "#id = text;\n" is the pair of its id and the text
    between. Text is written to the stream from left to right and never fails. *)
From Coq Require Import List ZArith QArith Qcanon Bool String Ascii.
From Verif Require Import Base ModelVec ModelNurbs ModelMemView ModelSurface.
Import ListNotations.
Open Scope Qc_scope.

Inductive tok := Ch (c : ascii) | Ref (id : Z) | Int (k : Z) | Num (x : Qc).
Definition text := list tok.
Fixpoint txt (s : string) : text := match s with EmptyString => [] | String c t => Ch c :: txt t end.
Definition line := (Z * text)%type.

(** vectorToString without its brackets, utils.h:133-143, and the same loop written
    out at nurbs.h:681-685, 692-695, 1306-1311, 1331-1337: ", " after all but the last *)
Fixpoint commas (l : list text) : text :=
  match l with
  | [] => []
  | [x] => x
  | x :: t => x ++ txt ", " ++ commas t
  end.
Definition bracket (l : list text) : text := txt "(" ++ commas l ++ txt ")".

(** the stream and entity_id *)
Definition sink := (Z * list line)%type.

(** int id = entity_id++; out << "#" << id << " = " << ...; the text may mention the
    counter after the increment *)
Definition emit (body : Z -> text) (st : sink) : res (Z * sink) :=
  let '(id, out) := st in
  id' <- int_op (id + 1) ;;
  Ok (id, (id', out ++ [(id, body id')])).

Definition point_text (x y z : Qc) : text :=
  txt "CARTESIAN_POINT('', (" ++ Num x :: txt ", " ++ Num y :: txt ", " ++ Num z :: txt "))".

Definition knots_text (U : list Qc) : text * text :=
  let r := getKnotMultiplicities U in
  (bracket (map (fun km => [Int (Z.of_nat (snd km))]) r), bracket (map (fun km => [Num (fst km)]) r)).

(** nurbs.h:664-669: one line per control point *)
Fixpoint curve_points (P : list vec4) (st : sink) : res (list Z * sink) :=
  match P with
  | [] => Ok ([], st)
  | q :: t =>
      '(id, st) <- emit (fun _ => point_text (wx q) (wy q) (wz q)) st ;;
      '(ids, st) <- curve_points t st ;;
      Ok (id :: ids, st)
  end.

(** NURBSCurve::toSTEP, nurbs.h:661-703 *)
Definition nc_step (c : ncurve) (st : sink) : res (Z * sink) :=
  '(ids, st) <- curve_points (nc_cps c) st ;;
  let '(mults, knots) := knots_text (nc_knots c) in
  let weights := bracket (map (fun q => [Num (ww q)]) (nc_cps c)) in
  emit (fun _ => txt "RATIONAL_B_SPLINE_CURVE_WITH_KNOTS('', " ++ Int (Z.of_nat (nc_degree c)) :: txt ", ("
    ++ commas (map (fun id => [Ref id]) ids) ++ txt "), .UNSPECIFIED., .F., .F., "
    ++ mults ++ txt ", " ++ knots ++ txt ", .UNSPECIFIED., " ++ weights ++ txt ")") st.

(** nurbs.h:1285-1296: one line per control point, divided by its weight *)
Fixpoint surface_row (P : list vec4) (st : sink) : res (list Z * sink) :=
  match P with
  | [] => Ok ([], st)
  | q :: t =>
      x <- qdiv (wx q) (ww q) ;; y <- qdiv (wy q) (ww q) ;; z <- qdiv (wz q) (ww q) ;;
      '(id, st) <- emit (fun _ => point_text x y z) st ;;
      '(ids, st) <- surface_row t st ;;
      Ok (id :: ids, st)
  end.
Fixpoint surface_rows (P : list (list vec4)) (st : sink) : res (list (list Z) * sink) :=
  match P with
  | [] => Ok ([], st)
  | row :: t =>
      '(ids, st) <- surface_row row st ;;
      '(rest, st) <- surface_rows t st ;;
      Ok (ids :: rest, st)
  end.

(** the part of the control points the loops to _size[0], _size[1] read; UB if there are fewer *)
Definition used (s : nsurf) : res (list (list vec4)) :=
  mapM (fun i => mapM (fun j => get2 (ns_cps s) (Z.of_nat i) (Z.of_nat j)) (seq 0 (ns_sv s))) (seq 0 (ns_su s)).

(** nurbs.h:1357-1371: the corners; i < 2 takes the start of curve i, else the end *)
Fixpoint vertices (i : nat) (cs : list ncurve) (st : sink) : res (list Z * sink) :=
  match cs with
  | [] => Ok ([], st)
  | c :: t =>
      p <- evaluate c (if Nat.ltb i 2 then fst (nc_interval c) else snd (nc_interval c)) ;;
      '(pid, st) <- emit (fun _ => point_text (vx p) (vy p) (vz p)) st ;;
      '(id, st) <- emit (fun _ => txt "VERTEX_POINT('', " ++ Ref pid :: txt ")") st ;;
      '(ids, st) <- vertices (S i) t st ;;
      Ok (id :: ids, st)
  end.

(** nurbs.h:1351-1355 *)
Fixpoint curves (cs : list ncurve) (st : sink) : res (list Z * sink) :=
  match cs with
  | [] => Ok ([], st)
  | c :: t => '(id, st) <- nc_step c st ;; '(ids, st) <- curves t st ;; Ok (id :: ids, st)
  end.

(** nurbs.h:1373-1381 *)
Definition edge (v1 v2 c : Z) : Z -> text :=
  fun _ => txt "EDGE_CURVE('', " ++ Ref v1 :: txt ", " ++ Ref v2 :: txt ", " ++ Ref c :: txt ", .T.)".

(** NURBSSurface::toSTEP, nurbs.h:1282-1487 *)
Definition ns_step (s : nsurf) (st : sink) : res (Z * sink) :=
  P <- used s ;;
  '(ids, st) <- surface_rows P st ;;
  let '(mu, ku) := knots_text (ns_ku s) in
  let '(mv, kv) := knots_text (ns_kv s) in
  '(bs, st) <- emit (fun _ => txt "RATIONAL_B_SPLINE_SURFACE_WITH_KNOTS('', "
     ++ Int (Z.of_nat (ns_du s)) :: txt ", " ++ Int (Z.of_nat (ns_dv s)) :: txt ", "
     ++ bracket (map (fun row => bracket (map (fun id => [Ref id]) row)) ids)
     ++ txt ", .UNSPECIFIED., .F., .F., .F., " ++ mu ++ txt ", " ++ ku ++ txt ", " ++ mv ++ txt ", " ++ kv
     ++ txt ", .UNSPECIFIED., " ++ bracket (map (fun row => bracket (map (fun q => [Num (ww q)]) row)) P) ++ txt ")") st ;;
  bnd <- ns_boundaries s ;;
  '(cids, st) <- curves bnd st ;;
  '(vids, st) <- vertices 0 bnd st ;;
  c0 <- get cids 0 ;; c1 <- get cids 1 ;; c2 <- get cids 2 ;; c3 <- get cids 3 ;;
  v0 <- get vids 0 ;; v1 <- get vids 1 ;; v2 <- get vids 2 ;; v3 <- get vids 3 ;;
  '(e0, st) <- emit (edge v0 v1 c0) st ;;
  '(e1, st) <- emit (edge v1 v2 c1) st ;;
  '(e2, st) <- emit (edge v2 v3 c2) st ;;
  '(e3, st) <- emit (edge v3 v0 c3) st ;;
  '(loop, st) <- emit (fun _ => txt "EDGE_LOOP('', (" ++ commas [[Ref e0]; [Ref e1]; [Ref e2]; [Ref e3]] ++ txt "))") st ;;
  '(bound, st) <- emit (fun _ => txt "FACE_OUTER_BOUND('', " ++ Ref loop :: txt ", .T.)") st ;;
  '(face, st) <- emit (fun _ => txt "ADVANCED_FACE('', (" ++ Ref bound :: txt "), " ++ Ref bs :: txt ", .T.)") st ;;
  '(shell, st) <- emit (fun _ => txt "OPEN_SHELL('', (" ++ Ref face :: txt "))") st ;;
  '(_, st) <- emit (fun _ => txt "SHELL_BASED_SURFACE_MODEL('shell_1', (" ++ Ref shell :: txt "))") st ;;
  '(rgb, st) <- emit (fun _ => txt "COLOUR_RGB('', 0., 0., 0.)") st ;;
  '(fac, st) <- emit (fun _ => txt "FILL_AREA_STYLE_COLOUR('', " ++ Ref rgb :: txt ")") st ;;
  '(fas, st) <- emit (fun _ => txt "FILL_AREA_STYLE('', (" ++ Ref fac :: txt "))") st ;;
  '(ssf, st) <- emit (fun _ => txt "SURFACE_STYLE_FILL_AREA(" ++ Ref fas :: txt ")") st ;;
  '(sss, st) <- emit (fun _ => txt "SURFACE_SIDE_STYLE('', (" ++ Ref ssf :: txt "), .F.)") st ;;
  '(ssu, st) <- emit (fun _ => txt "SURFACE_STYLE_USAGE(.BOTH., " ++ Ref sss :: txt ")") st ;;
  '(rep, st) <- emit (fun _ => txt "MECHANICAL_DESIGN_GEOMETRIC_PRESENTATION_REPRESENTATION('', (" ++ Ref face :: txt "), " ++ Ref bs :: txt ")") st ;;
  '(sty, st) <- emit (fun _ => txt "STYLED_ITEM('', (" ++ Ref ssu :: txt "), " ++ Ref rep :: txt ")") st ;;
  '(_, st) <- emit (fun _ => txt "PRESENTATION_STYLE_ASSIGNMENT((" ++ Ref sty :: txt "))") st ;;
  '(pla, st) <- emit (fun _ => txt "PRESENTATION_LAYER_ASSIGNMENT('Default','', (" ++ Ref sty :: txt "))") st ;;
  '(_, st) <- emit (fun _ => txt "PRODUCT('Document','Document','', (" ++ Ref pla :: txt "))") st ;;
  '(pdc, st) <- emit (fun e => txt "PRODUCT_DEFINITION_CONTEXT('3D Mechanical Parts', " ++ Ref (e + 1) :: txt ", 'design')") st ;;
  '(_, st) <- emit (fun e => txt "PRODUCT_DEFINITION('A','First version', " ++ Ref (e + 1) :: txt ", " ++ Ref pdc :: txt ")") st ;;
  '(pdf, st) <- emit (fun e => txt "PRODUCT_DEFINITION_FORMATION_WITH_SPECIFIED_SOURCE('A', 'First version', " ++ Ref (e + 1) :: txt ", .MADE.)") st ;;
  '(_, st) <- emit (fun _ => txt "PRODUCT_RELATED_PRODUCT_CATEGORY('tool','tool', (" ++ Ref pdf :: txt ")") st ;;
  '(_, st) <- emit (fun e => txt "APPLICATION_PROTOCOL_DEFINITION('Draft International Standard', 'automotive_design', 1999, " ++ Ref (e + 1) :: txt ")") st ;;
  '(ac, st) <- emit (fun _ => txt "APPLICATION_CONTEXT('data for automotive mechanical design processes')") st ;;
  '(pc, st) <- emit (fun _ => txt "PRODUCT_CONTEXT('3D Mechanical Parts', " ++ Ref ac :: txt ", 'mechanical')") st ;;
  '(pf, st) <- emit (fun _ => txt "PRODUCT('Document','Document','', (" ++ Ref pc :: txt "))") st ;;
  '(_, st) <- emit (fun _ => txt "SHAPE_REPRESENTATION_RELATIONSHIP('', '', " ++ Ref rep :: txt ", " ++ Ref pf :: txt ")") st ;;
  Ok (bs, st).

(** writeSTEPFile, nurbs.h:1493-1528: the lines of the DATA section; [opens] is
    whether the file could be opened. The header is fixed text and the date. *)
Definition write_step_file (opens : bool) (s : nsurf) : res (list line) :=
  if opens then '(_, (_, out)) <- ns_step s (10%Z, []) ;; Ok out else Throw ERuntime.

(** ** out << double with the default precision: six significant digits, as printf's
    "%g" does (round half to even on the exact value). Only the number the text
    stands for is modelled. *)
Fixpoint pow10 (k : nat) : Z := match k with O => 1 | S k => 10 * pow10 k end.
(** 10^e *)
Definition ten (e : Z) : Qc :=
  if (0 <=? e)%Z then Qc_of_Z (pow10 (Z.to_nat e)) else / Qc_of_Z (pow10 (Z.to_nat (- e))).
(** the largest e <= [e] with 10^e <= a, not looking below e - fuel *)
Fixpoint exponent (fuel : nat) (e : Z) (a : Qc) : Z :=
  match fuel with
  | O => e
  | S fuel => if ten e <=? a then e else exponent fuel (e - 1) a
  end.
(** to the nearest integer, ties to the even one *)
Definition round_even (m : Qc) : Z :=
  let q := this m in
  let n := (Qnum q / QDen q)%Z in
  let r := (2 * (Qnum q mod QDen q))%Z in
  if (r <? QDen q)%Z then n
  else if (QDen q <? r)%Z then (n + 1)%Z
  else if Z.even n then n else (n + 1)%Z.
Definition shown (x : Qc) : Qc :=
  if Qceqb x 0 then 0 else
  let q := this (Qcabs x) in
  let hi := (Z.log2 (Qnum q) + 1)%Z in
  let lo := (Z.log2 (QDen q) + 1)%Z in
  let e := exponent (Z.to_nat (hi + lo)) hi (Qcabs x) in
  Qc_of_Z (round_even (x / ten (e - 5))) * ten (e - 5).
