(** Facts about the infrastructure of Base.v, and the arithmetic tactics. *)
From Coq Require Import List ZArith Lia QArith Qcanon Lqa Bool.
From Verif Require Import Base.
Import ListNotations.
Open Scope Qc_scope.

(** ** Transfer from Qc to Q, where lra / nra apply *)

Lemma this_plus a b : (this (a + b) == this a + this b)%Q.
Proof. apply Qred_correct. Qed.
Lemma this_mult a b : (this (a * b) == this a * this b)%Q.
Proof. apply Qred_correct. Qed.
Lemma this_opp a : (this (- a) == - this a)%Q.
Proof. apply Qred_correct. Qed.
Lemma this_minus a b : (this (a - b) == this a - this b)%Q.
Proof. unfold Qcminus. rewrite this_plus, this_opp. reflexivity. Qed.
Lemma this_0 : (this 0 == 0)%Q. Proof. reflexivity. Qed.
Lemma this_1 : (this 1 == 1)%Q. Proof. reflexivity. Qed.
Lemma this_Q2Qc q : (this (Q2Qc q) == q)%Q.
Proof. apply Qred_correct. Qed.
Lemma this_qc n d : (this (qc n d) == n # d)%Q.
Proof. apply Qred_correct. Qed.
Lemma this_of_Z z : (this (Qc_of_Z z) == inject_Z z)%Q.
Proof. apply Qred_correct. Qed.

Lemma Qc_eq_this a b : a = b <-> (this a == this b)%Q.
Proof. split; [intros ->; reflexivity | apply Qc_is_canon]. Qed.

Lemma Qc_le_this a b : (a <= b)%Qc <-> (this a <= this b)%Q.
Proof. reflexivity. Qed.
Lemma Qc_lt_this a b : (a < b)%Qc <-> (this a < this b)%Q.
Proof. reflexivity. Qed.

Lemma Qcleb_iff a b : (a <=? b) = true <-> a <= b.
Proof. unfold Qcleb. rewrite Qle_bool_iff. reflexivity. Qed.
Lemma Qcleb_false a b : (a <=? b) = false <-> b < a.
Proof.
  unfold Qcleb. rewrite <- not_true_iff_false, Qle_bool_iff.
  split; [apply Qnot_le_lt | apply Qlt_not_le].
Qed.
Lemma Qcltb_iff a b : (a <? b) = true <-> a < b.
Proof. unfold Qcltb. rewrite negb_true_iff. apply Qcleb_false. Qed.
Lemma Qcltb_false a b : (a <? b) = false <-> b <= a.
Proof. unfold Qcltb. rewrite negb_false_iff. apply Qcleb_iff. Qed.
Lemma Qceqb_iff a b : (a =? b) = true <-> a = b.
Proof. unfold Qceqb. rewrite Qeq_bool_iff. symmetry. apply Qc_eq_this. Qed.
Lemma Qceqb_false a b : (a =? b) = false <-> a <> b.
Proof. rewrite <- not_true_iff_false, Qceqb_iff. reflexivity. Qed.

Lemma Qcleb_spec a b : reflect (a <= b) (a <=? b).
Proof. apply iff_reflect. symmetry. apply Qcleb_iff. Qed.
Lemma Qcltb_spec a b : reflect (a < b) (a <? b).
Proof. apply iff_reflect. symmetry. apply Qcltb_iff. Qed.
Lemma Qceqb_spec a b : reflect (a = b) (a =? b).
Proof. apply iff_reflect. symmetry. apply Qceqb_iff. Qed.

(** Turn boolean comparisons in the context into propositions. *)
Ltac qcb :=
  repeat match goal with
  | H : (_ <=? _) = true |- _ => apply Qcleb_iff in H
  | H : (_ <=? _) = false |- _ => apply Qcleb_false in H
  | H : (_ <? _) = true |- _ => apply Qcltb_iff in H
  | H : (_ <? _) = false |- _ => apply Qcltb_false in H
  | H : (_ =? _) = true |- _ => apply Qceqb_iff in H
  | H : (_ =? _) = false |- _ => apply Qceqb_false in H
  | |- (_ <=? _) = true => apply Qcleb_iff
  | |- (_ <=? _) = false => apply Qcleb_false
  | |- (_ <? _) = true => apply Qcltb_iff
  | |- (_ <? _) = false => apply Qcltb_false
  | |- (_ =? _) = true => apply Qceqb_iff
  | |- (_ =? _) = false => apply Qceqb_false
  end.

Lemma Qc_neq_or a b : a <> b -> a < b \/ b < a.
Proof.
  intros H. destruct (Q_dec (this a) (this b)) as [[Hl|Hl]|He].
  - left; exact Hl.
  - right; exact Hl.
  - exfalso. apply H. apply Qc_is_canon. exact He.
Qed.

Ltac qc_push :=
  repeat match goal with
  | H : @eq Qc _ _ |- _ => rewrite Qc_eq_this in H
  | H : ~ (_ <= _)%Qc |- _ => apply Qcnot_le_lt in H
  | H : ~ (_ < _)%Qc |- _ => apply Qcnot_lt_le in H
  | H : (_ <= _)%Qc |- _ => rewrite Qc_le_this in H
  | H : (_ < _)%Qc |- _ => rewrite Qc_lt_this in H
  end;
  match goal with
  | |- @eq Qc _ _ => rewrite Qc_eq_this
  | |- (_ <= _)%Qc => rewrite Qc_le_this
  | |- (_ < _)%Qc => rewrite Qc_lt_this
  | |- _ => idtac
  end;
  repeat progress rewrite ?this_plus, ?this_minus, ?this_mult, ?this_opp, ?this_0, ?this_1, ?this_qc, ?this_Q2Qc in *.

Ltac qc_lra := qcb; qc_push; lra.
Ltac qc_nra := qcb; qc_push; nra.

Lemma Forall2_length {A B} (R : A -> B -> Prop) l1 l2 : Forall2 R l1 l2 -> length l1 = length l2.
Proof. induction 1; cbn; congruence. Qed.

Lemma Qc_sq_nonneg (a : Qc) : 0 <= a * a.
Proof. qc_nra. Qed.
