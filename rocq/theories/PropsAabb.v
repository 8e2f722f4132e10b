(** Box properties C23-C26 and C77. *)
From Coq Require Import List ZArith QArith Qcanon.
From Verif Require Import Base ModelVec ModelAabb SpecAabb ProofAabb.
Import ListNotations.
Open Scope Qc_scope.

(** C23: the box of a non-empty point vector contains every point and lies in
    every box that does. *)
Theorem C23_points_box_tight :
  forall pts, pts <> [] ->
  exists b, aabb_of_points pts = Ok b /\ proper b /\ (forall p, In p pts -> inside b p) /\
  forall b', (forall p, In p pts -> inside b' p) -> subbox b b'.
Proof. exact of_points_tight. Qed.
Print Assumptions C23_points_box_tight.

(** C24: intersects is exact on non-inverted boxes, and symmetric on all. *)
Theorem C24_intersects_exact :
  forall a b, proper a -> proper b ->
  (aabb_intersects a b = true <-> exists p, inside a p /\ inside b p).
Proof. exact intersects_common. Qed.
Print Assumptions C24_intersects_exact.

Theorem C24_intersects_symmetric : forall a b, aabb_intersects a b = aabb_intersects b a.
Proof. exact intersects_sym. Qed.
Print Assumptions C24_intersects_symmetric.

(** C25: intersection is the meet, merge and expand are joins. *)
Theorem C25_intersection_merge_expand :
  (forall a b c, aabb_intersection a b = Some c -> forall p, inside c p <-> inside a p /\ inside b p) /\
  (forall a b, proper a -> proper b -> aabb_intersection a b = None -> forall p, ~ (inside a p /\ inside b p)) /\
  (forall a b, subbox a (aabb_merge a b) /\ subbox b (aabb_merge a b)) /\
  (forall a b c, proper a -> proper b -> subbox a c -> subbox b c -> subbox (aabb_merge a b) c) /\
  (forall b p, subbox b (aabb_expand b p) /\ (proper b -> inside (aabb_expand b p) p)) /\
  (forall b p c, proper b -> subbox b c -> inside c p -> subbox (aabb_expand b p) c).
Proof. exact meet_join. Qed.
Print Assumptions C25_intersection_merge_expand.

(** C26: infinity() does not recognise the default box (it never returns true). *)
Theorem C26_infinity_recognises_default_refuted :
  exists b, b = aabb_default /\ aabb_infinity b = false.
Proof. exact infinity_refuted. Qed.
Print Assumptions C26_infinity_recognises_default_refuted.

(** What does hold: the default box is neutral and contains nothing.
    Missing: infinity(). *)
Theorem C26_default_neutral_partial :
  (forall b, finite_box b -> aabb_merge aabb_default b = b /\ aabb_merge b aabb_default = b) /\
  (forall p, finite_point p -> aabb_expand aabb_default p = Box p p) /\
  (forall p, ~ inside aabb_default p).
Proof. exact default_neutral. Qed.
Print Assumptions C26_default_neutral_partial.

(** C77: volume is non-negative and monotone. *)
Theorem C77_volume_monotone :
  forall a b, proper a -> subbox a b -> 0 <= aabb_volume a /\ aabb_volume a <= aabb_volume b.
Proof. exact volume_monotone. Qed.
Print Assumptions C77_volume_monotone.

(** ** Instances *)
Definition bx (a b c d e f : Z) : aabb := Box (V3 (qc a 1) (qc b 1) (qc c 1)) (V3 (qc d 1) (qc e 1) (qc f 1)).

Example C23_instance :
  aabb_of_points [V3 (qc 1 1) (qc 5 1) (qc (-2) 1); V3 (qc 3 1) (qc 4 1) (qc 0 1); V3 (qc 2 1) (qc 7 1) (qc 0 1)]
  = Ok (bx 1 4 (-2) 3 7 0).
Proof. vm_compute. reflexivity. Qed.
Example proper_instance : proper (bx 0 0 0 2 2 2) /\ proper (bx 2 1 1 3 3 3).
Proof. split; intros [| |]; vm_compute; discriminate. Qed.
Example C24_touching : aabb_intersects (bx 0 0 0 2 2 2) (bx 2 1 1 3 3 3) = true
  /\ aabb_intersects (bx 0 0 0 2 2 2) (bx 0 0 3 1 1 4) = false.
Proof. split; vm_compute; reflexivity. Qed.
Example C25_instance : aabb_intersection (bx 0 0 0 2 2 2) (bx 1 1 1 3 3 3) = Some (bx 1 1 1 2 2 2)
  /\ aabb_intersection (bx 0 0 0 2 2 2) (bx 0 0 3 1 1 4) = None.
Proof. split; vm_compute; reflexivity. Qed.
Example finite_instance : finite_box (bx 0 0 0 2 2 2).
Proof. split; intros [| |]; split; vm_compute; discriminate. Qed.
