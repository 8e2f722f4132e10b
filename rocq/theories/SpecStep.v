(** What a STEP (ISO 10303-21) text says. *)
From Coq Require Import List ZArith QArith Qcanon Bool String Ascii.
From Verif Require Import Base ModelVec ModelStep SpecNurbs.
Import ListNotations.
Open Scope Qc_scope.

(** "(a, b, c)" *)
Definition listing (l : list text) : text :=
  txt "(" ++ match l with [] => [] | x :: t => x ++ flat_map (fun y => txt ", " ++ y) t end ++ txt ")".

(** [n] numbers from [id] on *)
Definition from (id : Z) (n : nat) : list Z := map (fun k => (id + Z.of_nat k)%Z) (seq 0 n).

(** the entities a text refers to *)
Fixpoint refs (t : text) : list Z := match t with [] => [] | Ref i :: t => i :: refs t | _ :: t => refs t end.

(** the kind of entity: the characters before the first bracket *)
Fixpoint kind (t : text) : string :=
  match t with Ch c :: t => if Ascii.eqb c "(" then EmptyString else String c (kind t) | _ => EmptyString end.
Definition is_a (lines : list line) (id : Z) (k : string) : Prop := exists t, In (id, t) lines /\ kind t = k.

(** every closing bracket has its opening one, and the other way round *)
Fixpoint brackets (open : nat) (t : text) : bool :=
  match t with
  | [] => Nat.eqb open 0
  | Ch c :: t =>
      if Ascii.eqb c "(" then brackets (S open) t
      else if Ascii.eqb c ")" then match open with O => false | S k => brackets k t end
      else brackets open t
  | _ :: t => brackets open t
  end.

(** the point an entity stands for *)
Definition has_point (lines : list line) (id : Z) (p : vec3) : Prop :=
  In (id, txt "CARTESIAN_POINT('', " ++ listing [[Num (vx p)]; [Num (vy p)]; [Num (vz p)]] ++ txt ")") lines.

(** the knots with their multiplicities, written out *)
Fixpoint spread (mults : list nat) (knots : list Qc) : list Qc :=
  match mults, knots with m :: ms, k :: ks => repeat k m ++ spread ms ks | _, _ => [] end.
Definition ints (l : list nat) : text := listing (map (fun k => [Int (Z.of_nat k)]) l).
Definition nums (l : list Qc) : text := listing (map (fun x => [Num x]) l).

(** the entity [id] is the rational curve of degree [p] with points [Q], weights [W]
    and knots [U] *)
Definition curve_entity (lines : list line) (id : Z) (p : nat) (Q : list vec3) (W U : list Qc) : Prop :=
  exists rs mults knots,
    In (id, txt "RATIONAL_B_SPLINE_CURVE_WITH_KNOTS('', " ++ [Int (Z.of_nat p)] ++ txt ", " ++ listing (map (fun r => [Ref r]) rs)
      ++ txt ", .UNSPECIFIED., .F., .F., " ++ ints mults ++ txt ", " ++ nums knots ++ txt ", .UNSPECIFIED., " ++ nums W ++ txt ")") lines /\
    Forall2 (has_point lines) rs Q /\ List.length mults = List.length knots /\ spread mults knots = U.

(** the entity [id] is the rational surface of degrees [p], [q] *)
Definition surface_entity (lines : list line) (id : Z) (p q : nat) (Q : list (list vec3)) (W : list (list Qc)) (U V : list Qc) : Prop :=
  exists rs mu ku mv kv,
    In (id, txt "RATIONAL_B_SPLINE_SURFACE_WITH_KNOTS('', " ++ [Int (Z.of_nat p)] ++ txt ", " ++ [Int (Z.of_nat q)] ++ txt ", "
      ++ listing (map (fun row => listing (map (fun r => [Ref r]) row)) rs)
      ++ txt ", .UNSPECIFIED., .F., .F., .F., " ++ ints mu ++ txt ", " ++ nums ku ++ txt ", " ++ ints mv ++ txt ", " ++ nums kv
      ++ txt ", .UNSPECIFIED., " ++ listing (map nums W) ++ txt ")") lines /\
    Forall2 (Forall2 (has_point lines)) rs Q /\ List.length mu = List.length ku /\ List.length mv = List.length kv /\ spread mu ku = U /\ spread mv kv = V.

(** what these entities mean: sum of N_i w_i Q_i over the sum of N_i w_i *)
Definition curve_of_entity (p n : nat) (Q : list vec3) (W U : list Qc) (u : Qc) : vec3 :=
  let w i := basis_at U n p u i * nth i W 0 in
  let num c := qsum (fun i => w i * c (nth i Q (V3 0 0 0))) (S n) in
  let den := qsum w (S n) in
  V3 (num vx / den) (num vy / den) (num vz / den).
Definition surface_of_entity (p q n m : nat) (Q : list (list vec3)) (W : list (list Qc)) (U V : list Qc) (u v : Qc) : vec3 :=
  let w i j := basis_at U n p u i * basis_at V m q v j * nth j (nth i W []) 0 in
  let num c := qsum (fun i => qsum (fun j => w i j * c (nth j (nth i Q []) (V3 0 0 0))) (S m)) (S n) in
  let den := qsum (fun i => qsum (w i) (S m)) (S n) in
  V3 (num vx / den) (num vy / den) (num vz / den).

(** an edge along the curve [c] from the vertex at [a] to the vertex at [b] *)
Definition edge_entity (lines : list line) (id : Z) (a b : vec3) (c : Z) : Prop :=
  exists va vb pa pb,
    In (id, txt "EDGE_CURVE" ++ listing [txt "''"; [Ref va]; [Ref vb]; [Ref c]; txt ".T."]) lines /\
    In (va, txt "VERTEX_POINT" ++ listing [txt "''"; [Ref pa]]) lines /\ has_point lines pa a /\
    In (vb, txt "VERTEX_POINT" ++ listing [txt "''"; [Ref pb]]) lines /\ has_point lines pb b.

(** the curve [c] starts at [a] and ends at [b] *)
Definition runs_between (lines : list line) (c : Z) (a b : vec3) : Prop :=
  exists p n Q W U, curve_entity lines c p Q W U /\ List.length Q = S n /\
    curve_of_entity p n Q W U (knot U p) = a /\ curve_of_entity p n Q W U (knot U (n + 1)) = b.

(** different knots are 1e-8 (as a double) apart *)
Definition knots_apart (U : list Qc) : Prop :=
  forall x y, In x U -> In y U -> x < y -> Q2Qc (3022314549036573 # 302231454903657293676544) <= y - x.

(** the line with its numbers as a stream of default precision writes them *)
Definition printed (l : line) : line := (fst l, map (fun t => match t with Num x => Num (shown x) | t => t end) (snd l)).

(** what the arguments of the entities have to refer to *)
Local Open Scope string_scope.
Definition wants (k : string) : option (list string) :=
  if String.eqb k "VERTEX_POINT" then Some ["CARTESIAN_POINT"]
  else if String.eqb k "EDGE_CURVE" then Some ["VERTEX_POINT"; "VERTEX_POINT"; "RATIONAL_B_SPLINE_CURVE_WITH_KNOTS"]
  else if String.eqb k "FACE_OUTER_BOUND" then Some ["EDGE_LOOP"]
  else if String.eqb k "ADVANCED_FACE" then Some ["FACE_OUTER_BOUND"; "RATIONAL_B_SPLINE_SURFACE_WITH_KNOTS"]
  else if String.eqb k "OPEN_SHELL" then Some ["ADVANCED_FACE"]
  else if String.eqb k "SHELL_BASED_SURFACE_MODEL" then Some ["OPEN_SHELL"]
  else if String.eqb k "FILL_AREA_STYLE_COLOUR" then Some ["COLOUR_RGB"]
  else if String.eqb k "FILL_AREA_STYLE" then Some ["FILL_AREA_STYLE_COLOUR"]
  else if String.eqb k "SURFACE_STYLE_FILL_AREA" then Some ["FILL_AREA_STYLE"]
  else if String.eqb k "SURFACE_SIDE_STYLE" then Some ["SURFACE_STYLE_FILL_AREA"]
  else if String.eqb k "SURFACE_STYLE_USAGE" then Some ["SURFACE_SIDE_STYLE"]
  else if String.eqb k "PRODUCT_CONTEXT" then Some ["APPLICATION_CONTEXT"]
  else if String.eqb k "PRODUCT_DEFINITION" then Some ["PRODUCT_DEFINITION_FORMATION_WITH_SPECIFIED_SOURCE"; "PRODUCT_DEFINITION_CONTEXT"]
  else if String.eqb k "PRODUCT_DEFINITION_CONTEXT" then Some ["APPLICATION_CONTEXT"]
  else if String.eqb k "PRODUCT_DEFINITION_FORMATION_WITH_SPECIFIED_SOURCE" then Some ["PRODUCT"]
  else if String.eqb k "APPLICATION_PROTOCOL_DEFINITION" then Some ["APPLICATION_CONTEXT"]
  else None.
