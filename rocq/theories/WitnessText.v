(** A concrete way of writing numbers with two digits, and trees that use it. *)
From Coq Require Import Ascii String List ZArith QArith Qcanon Bool Decimal DecimalString.
From Verif Require Import Base ModelVec ModelAabb ModelBvh SpecBvh ModelText SpecText ProofText.
Import ListNotations.
Local Open Scope string_scope.

Definition digits (n : Z) : string := NilZero.string_of_uint (N.to_uint (Z.to_N n)).
(** fixed notation with two digits, halves away from zero *)
Definition fixed2 (x : Qc) : string :=
  let q := (this x * (100 # 1))%Q in
  let h := ((2 * Z.abs (Qnum q) + Z.pos (Qden q)) / (2 * Z.pos (Qden q)))%Z in
  (if (Qnum q <? 0)%Z then "-" else "") ++ digits (h / 100) ++ "." ++ digits (h mod 100 / 10) ++ digits (h mod 10).

Lemma plain_app a b : plain a -> plain b -> plain (a ++ b).
Proof. induction a as [|c a IH]; cbn; [tauto|]. intros [H1 H2] H. auto. Qed.
Lemma plain_empty_uint d : plain (NilEmpty.string_of_uint d).
Proof. induction d; cbn; auto. Qed.
Lemma plain_digits n : plain (digits n).
Proof. unfold digits, NilZero.string_of_uint. destruct (N.to_uint (Z.to_N n)); [cbn; auto|..]; apply plain_empty_uint. Qed.
Lemma fixed2_plain : plain_numbers fixed2.
Proof.
  intros x. unfold fixed2. cbv zeta. repeat apply plain_app; try apply plain_digits; [|cbn; auto].
  destruct (_ <? 0)%Z; cbn; auto.
Qed.

Definition q (a : Z) (b : positive) : Qc := Q2Qc (a # b).
Definition cube (i : Z) (lo hi : Qc) : obj := Obj i (Box (V3 lo lo lo) (V3 hi hi hi)).
Definition obj_leaf (o : obj) : bvh := BNode (obox o) (Some o) BNull BNull.
Definition two : bvh :=
  BNode (aabb_merge (obox (cube 1 0 1)) (obox (cube 2 (q 3 2) (q 2 1)))) None
    (obj_leaf (cube 1 0 1)) (obj_leaf (cube 2 (q 3 2) (q 2 1))).
Lemma two_text : output_bvh_nodes fixed2 two =
  "[[0.00,0.00,0.00],[2.00,2.00,2.00]],[[[0.00,0.00,0.00],[1.00,1.00,1.00]],[[1.50,1.50,1.50],[2.00,2.00,2.00]]]".
Proof. vm_compute. reflexivity. Qed.
Lemma shown_numbers : fixed2 1%Qc = "1.00" /\ fixed2 (q (-5) 4) = "-1.25" /\ fixed2 (q 1234 10) = "123.40".
Proof. vm_compute. auto. Qed.
