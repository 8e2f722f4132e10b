(** Model of the text output of cmmcore: operator<< of vectors, format_vec3 and
    the printed form of hierarchies and objects. (MemoryView::to_string is in
    ModelMemView.)

    How the stream writes a number is an argument: [num] for the default format,
    [fx] for std::fixed with two digits. *)
From Coq Require Import String List ZArith QArith Qcanon Bool.
From Verif Require Import Base ModelVec ModelAabb ModelBvh.
Import ListNotations.
Local Open Scope string_scope.

Section Numbers.
Variable num : Qc -> string.

(** operator<<(ostream, vec2), vec.h:991-994 *)
Definition text_vec2 (v : vec2) : string := "[" ++ num (ux v) ++ "," ++ num (uy v) ++ "]".
(** operator<<(ostream, vec3), vec.h:995-998 *)
Definition text_vec3 (v : vec3) : string := "[" ++ num (vx v) ++ "," ++ num (vy v) ++ num (vz v) ++ "]".
(** operator<<(ostream, vec4), vec.h:1001-1004 *)
Definition text_vec4 (v : vec4) : string :=
  "[" ++ num (wx v) ++ "," ++ num (wy v) ++ num (wz v) ++ num (ww v) ++ "]".
End Numbers.

Section Fixed.
Variable fx : Qc -> string.

(** format_vec3, vec.h:519-524 *)
Definition format_vec3 (v : vec3) : string :=
  "[" ++ fx (vx v) ++ "," ++ fx (vy v) ++ "," ++ fx (vz v) ++ "]".
(** the loop of format_vec3vec, vec.h:527-530 *)
Fixpoint format_loop (vs : list vec3) (repr : string) : string :=
  match vs with
  | [] => repr
  | v :: r => format_loop r ((repr ++ format_vec3 v) ++ ",")
  end.
(** format_vec3vec, vec.h:525-533 *)
Definition format_vec3vec (vs : list vec3) : string := format_loop vs "[" ++ "]".

(** output_aabb, bvh.hpp:533-536; the same text is written in bvh.hpp:517-518 *)
Definition output_aabb (b : aabb) : string := "[" ++ format_vec3 (bmin b) ++ "," ++ format_vec3 (bmax b) ++ "]".

(** output_bvh_nodes, bvh.hpp:512-532 *)
Fixpoint output_bvh_nodes (t : bvh) : string :=
  match t with
  | BNull => ""
  | BNode bb _ l r =>
      output_aabb bb ++
      (if negb (is_null l) || negb (is_null r) then
         ",[" ++ (if is_null l then "" else output_bvh_nodes l) ++
         (if negb (is_null l) && negb (is_null r) then "," else "") ++
         (if is_null r then "" else output_bvh_nodes r) ++ "]"
       else "")
  end.

(** output_object3d, bvh.hpp:538-542; None is a null pointer *)
Definition output_object3d (o : option obj) : string :=
  match o with None => "" | Some x => output_aabb (obox x) end.
(** output_objects3d, bvh.hpp:544-552 *)
Fixpoint objects_loop (os : list (option obj)) (result : string) : string :=
  match os with
  | [] => result
  | o :: r => objects_loop r (result ++ (output_object3d o ++ ","))
  end.
Definition output_objects3d (os : list (option obj)) : string := "[" ++ objects_loop os "" ++ "]".
End Fixed.
