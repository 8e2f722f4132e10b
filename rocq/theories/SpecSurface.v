(** Specification of NURBS surfaces: the textbook tensor-product definition over
    the B-spline basis of SpecNurbs, written without reference to the program's
    algorithms. *)
From Coq Require Import List ZArith QArith Qcanon.
From Verif Require Import Base ModelVec ModelAabb ModelNurbs ModelSurface SpecAabb SpecNurbs.
Import ListNotations.
Open Scope Qc_scope.

(** control point in row i, column j *)
Definition cp (P : list (list vec4)) (i j : nat) : vec4 := nth j (nth i P []) (V4 0 0 0 0).

(** the surface has (n+1) x (m+1) control points, sizes to match, sorted knot
    vectors of matching lengths whose last spans are not empty, and degrees the
    library's fixed buffers can hold *)
Definition good_surf (s : nsurf) (n m : nat) : Prop :=
  length (ns_cps s) = S n /\ (forall row, In row (ns_cps s) -> length row = S m) /\
  ns_su s = S n /\ ns_sv s = S m /\
  valid_knots n (ns_du s) (ns_ku s) /\ valid_knots m (ns_dv s) (ns_kv s) /\
  (ns_du s <= 8)%nat /\ (ns_dv s <= 8)%nat.

Definition all_weights (s : nsurf) (good : Qc -> Prop) : Prop :=
  forall row q, In row (ns_cps s) -> In q row -> good (ww q).
Definition positive_surf (s : nsurf) : Prop := all_weights s (fun w => 0 < w).
Definition unit_surf (s : nsurf) : Prop := all_weights s (fun w => w = 1).

(** parameters of the surface *)
Definition in_surf (s : nsurf) (n m : nat) (u v : Qc) : Prop :=
  in_domain n (ns_du s) (ns_ku s) u /\ in_domain m (ns_dv s) (ns_kv s) v.

(** the intervals reported are the ranges of the knots *)
Definition intervals_current (s : nsurf) : Prop :=
  ns_iu s = (knot (ns_ku s) 0, knot (ns_ku s) (length (ns_ku s) - 1)) /\
  ns_iv s = (knot (ns_kv s) 0, knot (ns_kv s) (length (ns_kv s) - 1)).

(** sum over i, j of N_i(u) M_j(v) c(P_ij), where P_ij = (wx, wy, wz, w) are
    homogeneous points *)
Definition tensor (c : vec4 -> Qc) (s : nsurf) (n m : nat) (u v : Qc) : Qc :=
  qsum (fun i => qsum (fun j =>
    basis_at (ns_ku s) n (ns_du s) u i * basis_at (ns_kv s) m (ns_dv s) v j * c (cp (ns_cps s) i j)) (S m)) (S n).

(** the point of the rational surface with homogeneous control points *)
Definition surf_point (s : nsurf) (n m : nat) (u v : Qc) : vec3 :=
  let w := tensor ww s n m u v in
  V3 (tensor wx s n m u v / w) (tensor wy s n m u v / w) (tensor wz s n m u v / w).

(** [part] is a surface over [ulo, uhi] x [vlo, vhi] of the same degrees, with
    positive weights, through the same points as [s] there *)
Definition patch_of (part s : nsurf) (ulo uhi vlo vhi : Qc) : Prop :=
  exists n m, good_surf part n m /\ ns_du part = ns_du s /\ ns_dv part = ns_dv s /\
    positive_surf part /\ intervals_current part /\
    knot (ns_ku part) (ns_du part) = ulo /\ knot (ns_ku part) (n + 1) = uhi /\
    knot (ns_kv part) (ns_dv part) = vlo /\ knot (ns_kv part) (m + 1) = vhi /\
    forall u v, ulo <= u -> u <= uhi -> vlo <= v -> v <= vhi ->
      exists pt, ns_evaluate part u v = Ok pt /\ ns_evaluate s u v = Ok pt.
