(** Tolerances and views in files. *)
From Coq Require Import List ZArith QArith Qcanon.
From Verif Require Import Base ModelSerialization ModelMemView ModelUtil ModelViewFile SpecMemView SpecViewFile ProofUtil ProofViewFile.
Import ListNotations.

(** C211 *)
Theorem C211_epsilon_positive :
  forall x, (0 < calc_epsilon x)%Qc.
Proof. exact epsilon_pos. Qed.
Print Assumptions C211_epsilon_positive.

Theorem C211_epsilon_grows :
  forall x y, (Qcabs x <= Qcabs y)%Qc -> (calc_epsilon x <= calc_epsilon y)%Qc.
Proof. exact epsilon_mono. Qed.
Print Assumptions C211_epsilon_grows.

Example C211_case : calc_epsilon (Qc_of_Z 4) = qc 4 4503599627370496.
Proof. apply Qc_is_canon. vm_compute. reflexivity. Qed.

Local Open Scope Z_scope.

(** C213: false; the second view written to a file is not the one read *)
Theorem C213_last_view_refuted :
  exists tn sz v w f1 f2 u, storable_view tn sz v /\ storable_view tn sz w /\
  view_write tn sz v 100 vf_new = (Ok tt, f1) /\ view_write tn sz w 100 f1 = (Ok tt, f2) /\ view_read tn sz f2 = Ok u /\ ~ same_view w u.
Proof.
  destruct second_case as (f1 & f2 & A & B & C). exists [100], 1, old_view, new_view, f1, f2, old_view.
  exact (conj (pair_storable 1 2) (conj (pair_storable 3 4) (conj A (conj B (conj C second_wrong))))).
Qed.
Print Assumptions C213_last_view_refuted.

(** one view into a file whose position is the start, whatever the file holds *)
Theorem C213_view_file_partial :
  forall tn sz v f b n, storable_view tn sz v -> mv_serialize tn sz v = Ok b -> (length b <= n)%nat -> vf_pos f = 0%nat ->
  exists f' w, view_write tn sz v n f = (Ok tt, f') /\ view_read tn sz f' = Ok w /\ same_view v w.
Proof. exact file_round_trip. Qed.
Print Assumptions C213_view_file_partial.

(** the first view stays the one that is read *)
Theorem C213_first_view_partial :
  forall tn sz v f b n w m f1 f2 r, storable_view tn sz v -> mv_serialize tn sz v = Ok b -> (length b <= n)%nat -> vf_pos f = 0%nat ->
  view_write tn sz v n f = (Ok tt, f1) -> view_write tn sz w m f1 = (r, f2) -> exists u, view_read tn sz f2 = Ok u /\ same_view v u.
Proof. exact second_write. Qed.
Print Assumptions C213_first_view_partial.

Example C213_case : storable_view [100] 1 old_view /\ exists b, mv_serialize [100] 1 old_view = Ok b.
Proof. exact (conj (pair_storable 1 2) (file_serializes _ _ _ (pair_storable 1 2))). Qed.

(** C214: false; after a rewrite that breaks off, a mixture of both views is read *)
Theorem C214_torn_rewrite_refuted :
  exists tn sz v w u n f1 f2, storable_view tn sz v /\ storable_view tn sz w /\
  view_write tn sz v 100 vf_new = (Ok tt, f1) /\ view_write tn sz w n (vf_rewind f1) = (Throw ERuntime, f2) /\
  view_read tn sz f2 = Ok u /\ ~ same_view v u /\ ~ same_view w u.
Proof.
  destruct torn_mix as (f1 & f2 & A & B & C). exists [100], 1, old_view, new_view, mixed_view, 42%nat, f1, f2.
  exact (conj (pair_storable 1 2) (conj (pair_storable 3 4) (conj A (conj B (conj C mix_is_new))))).
Qed.
Print Assumptions C214_torn_rewrite_refuted.

(** a write to a new file that breaks off is reported, and what it leaves is rejected *)
Theorem C214_torn_new_file_partial :
  forall tn sz v b n, storable_view tn sz v -> mv_serialize tn sz v = Ok b -> (n < length b)%nat ->
  exists f', view_write tn sz v n vf_new = (Throw ERuntime, f') /\ exists e, view_read tn sz f' = Throw e.
Proof. exact torn_new_file. Qed.
Print Assumptions C214_torn_new_file_partial.
