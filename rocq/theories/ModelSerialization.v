(** Model of cmmcore/serialization.h (byte-level encoding of curves).

    Simplifications, valid for the whole file: memory allocation never fails
    (no bad_alloc); the host is little-endian with 4-byte int and 8-byte
    double; a [double] is its 64-bit pattern, a [Z] in [0, 2^64). *)
From Coq Require Import List ZArith Lia Bool.
From Verif Require Import Base.
Import ListNotations.
Open Scope Z_scope.

Definition byte := Z.
Definition dbl := Z.

(** Little-endian object representation of the low [n] bytes of [z]; this is
    what [reinterpret_cast<uint8_t*>(&value)] exposes
    (serialization.h:26, 40). *)
Fixpoint le_bytes (n : nat) (z : Z) : list byte :=
  match n with
  | O => []
  | S n' => (z mod 256) :: le_bytes n' (z / 256)
  end.

(** Value of a little-endian byte string: memcpy into an unsigned object
    (serialization.h:33, 47). *)
Fixpoint le_value (l : list byte) : Z :=
  match l with
  | [] => 0
  | b :: t => b + 256 * le_value t
  end.

(** Two's-complement reading of a 32-bit pattern as [int]. *)
Definition to_int32 (u : Z) : Z := if u <? 2 ^ 31 then u else u - 2 ^ 32.

(** vec4 (vec.h:681-): four doubles x, y, z, w. *)
Record vec4b := V4b { v4x : dbl; v4y : dbl; v4z : dbl; v4w : dbl }.

(** The data members of NURBSCurve (nurbs.h:52, 519-526) that the serializer
    touches. [_aabb], [_interval] and [_hull] are derived data and omitted. *)
Record curve := Curve {
  c_degree : Z;
  c_periodic : bool;          (* member _periodic *)
  c_cps : list vec4b;         (* member control_points *)
  c_knots : list dbl          (* member knots *)
}.

(** ** Writers *)

(** serialization.h:25-28 *)
Definition serializeInt (v : Z) : list byte := le_bytes 4 v.

(** serialization.h:39-42 *)
Definition serializeDouble (d : dbl) : list byte := le_bytes 8 d.

(** serialization.h:53-55 *)
Definition serializeBool (b : bool) : list byte := [if b then 1 else 0].

(** serialization.h:65-70 (size_t to int conversion: modulo 2^32) *)
Definition serializeVectorDouble (v : list dbl) : list byte :=
  serializeInt (Z.of_nat (length v)) ++ flat_map serializeDouble v.

(** serialization.h:83-87 *)
Definition serializeVec4 (v : vec4b) : list byte :=
  serializeDouble (v4x v) ++ serializeDouble (v4y v) ++
  serializeDouble (v4z v) ++ serializeDouble (v4w v).

(** serialization.h:99-104 *)
Definition serializeVectorVec4 (v : list vec4b) : list byte :=
  serializeInt (Z.of_nat (length v)) ++ flat_map serializeVec4 v.

(** IEEE-754 [a != b] on 64-bit patterns: a NaN differs from everything, the
    two zeros are equal. Used by NURBSCurve::is_periodic (nurbs.h:166). *)
Definition dbl_is_nan (d : dbl) : bool := (0x7FF0000000000000 <? d mod 2 ^ 63).
Definition dbl_is_zero (d : dbl) : bool := (d mod 2 ^ 63 =? 0).
Definition dbl_ne (a b : dbl) : bool :=
  if dbl_is_nan a || dbl_is_nan b then true
  else if dbl_is_zero a && dbl_is_zero b then false
  else negb (a =? b).

Definition vec4_ne (a b : vec4b) : bool :=
  dbl_ne (v4x a) (v4x b) || dbl_ne (v4y a) (v4y b) ||
  dbl_ne (v4z a) (v4z b) || dbl_ne (v4w a) (v4w b).

(** NURBSCurve::is_periodic, nurbs.h:163-172. [fuel] is the number of
    iterations left of the loop over [j]; the index
    [control_points.size() - _degree + j] is computed in size_t, so for
    size < degree it wraps to a huge value and the access is UB. *)
Fixpoint is_periodic_from (cps : list vec4b) (degree : Z) (j : nat) (fuel : nat) : res bool :=
  match fuel with
  | O => Ok true
  | S fuel' =>
      a <- get cps j ;;
      b <- getZ cps (Z.of_nat (length cps) - degree + Z.of_nat j) ;;
      if vec4_ne a b then Ok false else is_periodic_from cps degree (S j) fuel'
  end.

Definition is_periodic (c : curve) : res bool :=
  is_periodic_from (c_cps c) (c_degree c) 0 (Z.to_nat (c_degree c)).

(** serialization.h:117-124. The flag written is the computed is_periodic(),
    not the member _periodic. *)
Definition serializeNURBSCurve (c : curve) : res (list byte) :=
  p <- is_periodic c ;;
  Ok (serializeInt (c_degree c) ++ serializeBool p ++
      serializeVectorVec4 (c_cps c) ++ serializeVectorDouble (c_knots c)).

(** serialization.h:139-142: append the encoding of each curve. *)
Fixpoint serializeCurveList (cs : list curve) : res (list byte) :=
  match cs with
  | [] => Ok []
  | c :: t => b <- serializeNURBSCurve c ;; bs <- serializeCurveList t ;; Ok (b ++ bs)
  end.

(** serialization.h:136-144 *)
Definition serializeNURBSCurves (cs : list curve) : res (list byte) :=
  bs <- serializeCurveList cs ;; Ok (serializeInt (Z.of_nat (length cs)) ++ bs).

(** ** Readers. The read pointer is represented by the bytes that remain. *)

(** memcpy of [n] bytes from the read pointer, which then advances
    (serialization.h:33-34, 47-48): reading past the end of the buffer is UB. *)
Definition read_bytes (n : nat) (data : list byte) : res (list byte * list byte) :=
  if Nat.leb n (length data) then Ok (firstn n data, skipn n data) else UB.

(** serialization.h:31-36 *)
Definition deserializeInt (data : list byte) : res (Z * list byte) :=
  '(bs, rest) <- read_bytes 4 data ;; Ok (to_int32 (le_value bs), rest).

(** serialization.h:45-50 *)
Definition deserializeDouble (data : list byte) : res (dbl * list byte) :=
  '(bs, rest) <- read_bytes 8 data ;; Ok (le_value bs, rest).

(** serialization.h:58-62 *)
Definition deserializeBool (data : list byte) : res (bool * list byte) :=
  '(bs, rest) <- read_bytes 1 data ;; Ok (negb (le_value bs =? 0), rest).

(** The reading loops of serialization.h:76-78, 92-94, 110-112, 151-153. *)
Fixpoint read_n {A} (rd : list byte -> res (A * list byte)) (n : nat)
  (data : list byte) : res (list A * list byte) :=
  match n with
  | O => Ok ([], data)
  | S n' =>
      '(a, data1) <- rd data ;;
      '(l, data2) <- read_n rd n' data1 ;;
      Ok (a :: l, data2)
  end.

(** [std::vector<T> vec(size)] with a negative int: converted to a huge size_t,
    the constructor throws length_error (serialization.h:75, 109, 150). *)
Definition check_size (size : Z) : res unit :=
  if size <? 0 then Throw ELength else Ok tt.

(** serialization.h:73-80 *)
Definition deserializeVectorDouble (data : list byte) : res (list dbl * list byte) :=
  '(size, d1) <- deserializeInt data ;;
  _ <- check_size size ;;
  read_n deserializeDouble (Z.to_nat size) d1.

(** serialization.h:90-96 *)
Definition deserializeVec4 (data : list byte) : res (vec4b * list byte) :=
  '(x, d1) <- deserializeDouble data ;;
  '(y, d2) <- deserializeDouble d1 ;;
  '(z, d3) <- deserializeDouble d2 ;;
  '(w, d4) <- deserializeDouble d3 ;;
  Ok (V4b x y z w, d4).

(** serialization.h:107-114 *)
Definition deserializeVectorVec4 (data : list byte) : res (list vec4b * list byte) :=
  '(size, d1) <- deserializeInt data ;;
  _ <- check_size size ;;
  read_n deserializeVec4 (Z.to_nat size) d1.

(** Constructor NURBSCurve(control_points, degree, knots, periodic),
    nurbs.h:117-122: update_interval (nurbs.h:175-178) dereferences
    min_element of the knots and rebuildAABB (nurbs.h:528-540) reads
    control_points[0]: UB when one of them is empty. The interval and the box
    themselves are omitted. *)
Definition make_curve (cps : list vec4b) (degree : Z) (knots : list dbl) (periodic : bool) : res curve :=
  match knots, cps with
  | [], _ => UB
  | _, [] => UB
  | _, _ => Ok (Curve degree periodic cps knots)
  end.

(** serialization.h:127-133 *)
Definition deserializeNURBSCurve (data : list byte) : res (curve * list byte) :=
  '(degree, d1) <- deserializeInt data ;;
  '(periodic, d2) <- deserializeBool d1 ;;
  '(cps, d3) <- deserializeVectorVec4 d2 ;;
  '(knots, d4) <- deserializeVectorDouble d3 ;;
  c <- make_curve cps degree knots periodic ;;
  Ok (c, d4).

(** serialization.h:147-155; bytes after the last curve are ignored. *)
Definition deserializeNURBSCurves (data : list byte) : res (list curve) :=
  '(size, d1) <- deserializeInt data ;;
  _ <- check_size size ;;
  '(cs, _) <- read_n deserializeNURBSCurve (Z.to_nat size) d1 ;;
  Ok cs.

(** ** Files. [None]: the file cannot be opened. *)

(** serialization.h:158-166: the bytes handed to the stream. *)
Definition writeNURBSCurvesToFile (cs : list curve) : res (list byte) :=
  serializeNURBSCurves cs.

(** serialization.h:169-176 *)
Definition readNURBSCurvesFromFile (file : option (list byte)) : res (list curve) :=
  match file with
  | None => Throw ERuntime
  | Some data => deserializeNURBSCurves data
  end.
