(** Views in files. *)
From Coq Require Import List ZArith Lia.
From Verif Require Import Base BaseFacts ModelSerialization ModelMemView ModelViewFile SpecMemView SpecViewFile ProofMemView ProofMemViewSer.
Import ListNotations.
Local Open Scope Z_scope.
Local Notation zlen l := (Z.of_nat (length l)).

Lemma sub_bytes_app b rest pos len x : sub_bytes b pos len = Ok x -> sub_bytes (b ++ rest) pos len = Ok x.
Proof.
  unfold sub_bytes. destruct (Z.leb_spec 0 pos) as [P|]; [|discriminate]. destruct (Z.leb_spec 0 len) as [L|]; [|discriminate]. cbn [andb].
  destruct (Z.leb_spec (pos + len) (zlen b)) as [H|]; [|discriminate]. intros [= <-].
  destruct (Z.leb_spec (pos + len) (zlen (b ++ rest))) as [_|B]; [|rewrite app_length in B; lia].
  f_equal. rewrite skipn_app, firstn_app. rewrite skipn_length. replace (Z.to_nat len - (length b - Z.to_nat pos))%nat with 0%nat by lia.
  rewrite firstn_O, app_nil_r. reflexivity.
Qed.
Lemma read_sizes_app b rest pos n x : read_sizes b pos n = Ok x -> read_sizes (b ++ rest) pos n = Ok x.
Proof.
  unfold read_sizes. destruct (2 ^ 60 <=? n); [discriminate|]. destruct (sub_bytes b pos (8 * n)) as [y| |] eqn:E; try discriminate.
  rewrite (sub_bytes_app _ rest _ _ _ E). auto.
Qed.
Lemma ltb_app (b rest : list byte) z : (zlen b <? z) = false -> (zlen (b ++ rest) <? z) = false.
Proof. rewrite !Z.ltb_ge, app_length. lia. Qed.
(** bytes after the end of a record are not looked at *)
Lemma deserialize_app tn sz b rest v : mv_deserialize tn sz b = Ok v -> mv_deserialize tn sz (b ++ rest) = Ok v.
Proof.
  unfold mv_deserialize. cbv zeta. intros H.
  repeat match type of H with
  | (if (zlen b <? ?z) then _ else _) = _ => let E := fresh in destruct (zlen b <? z) eqn:E; [discriminate H|]; rewrite (ltb_app b rest z E)
  | bind (sub_bytes b ?p ?l) _ = _ => let E := fresh in destruct (sub_bytes b p l) as [?x| |] eqn:E; cbn [bind] in H; try discriminate H; rewrite (sub_bytes_app b rest p l _ E); cbn [bind]
  | bind (read_sizes b ?p ?l) _ = _ => let E := fresh in destruct (read_sizes b p l) as [?x| |] eqn:E; cbn [bind] in H; try discriminate H; rewrite (read_sizes_app b rest p l _ E); cbn [bind]
  | bind (if ?c then _ else sub_bytes b ?p ?l) _ = _ => destruct c; cbn [bind] in H; [discriminate H|]
  | (if ?c then Throw _ else _) = _ => destruct c; [discriminate H|]
  end.
  exact H.
Qed.

Lemma write_all f b n : (length b <= n)%nat -> vf_pos f = 0%nat -> vf_write f b n = (length b, VF (b ++ skipn (length b) (vf_bytes f)) (length b)).
Proof. intros L P. unfold vf_write. rewrite (firstn_all2 b L), P. reflexivity. Qed.
Lemma write_part b n : vf_write vf_new b n = (Nat.min n (length b), VF (firstn n b) (Nat.min n (length b))).
Proof. unfold vf_write, vf_new. cbn [vf_bytes vf_pos firstn app length repeat Nat.sub]. rewrite skipn_nil, app_nil_r, firstn_length. reflexivity. Qed.

Lemma file_round_trip tn sz v f b n : storable_view tn sz v -> mv_serialize tn sz v = Ok b -> (length b <= n)%nat -> vf_pos f = 0%nat ->
  exists f' w, view_write tn sz v n f = (Ok tt, f') /\ view_read tn sz f' = Ok w /\ same_view v w.
Proof.
  intros HV E L P. destruct (view_round_trip tn sz v HV) as (b' & w & E' & D & Sh & A). rewrite E in E'. injection E' as <-.
  unfold view_write. rewrite E, (write_all f b n L P), Nat.eqb_refl. eexists. exists w. split; [reflexivity|].
  split; [apply deserialize_app, D|]. split; assumption.
Qed.
Lemma file_serializes tn sz v : storable_view tn sz v -> exists b, mv_serialize tn sz v = Ok b.
Proof. intros HV. destruct (view_round_trip tn sz v HV) as (b & w & E & _). eauto. Qed.
Lemma torn_new_file tn sz v b n : storable_view tn sz v -> mv_serialize tn sz v = Ok b -> (n < length b)%nat ->
  exists f', view_write tn sz v n vf_new = (Throw ERuntime, f') /\ exists e, view_read tn sz f' = Throw e.
Proof.
  intros HV E L. unfold view_write. rewrite E, write_part. rewrite Nat.min_l by lia.
  destruct (Nat.eqb_spec n (length b)) as [X|X]; [lia|]. eexists. split; [reflexivity|]. unfold view_read. cbn [vf_bytes].
  apply (truncated_view_rejected tn sz v b (firstn n b) HV E). exists (skipn n b). split; [|symmetry; apply firstn_skipn].
  intros Z. apply (f_equal (@length byte)) in Z. rewrite skipn_length in Z. cbn in Z. lia.
Qed.
(** whatever is written after the first view *)
Lemma second_write tn sz v f b n w m f1 f2 r : storable_view tn sz v -> mv_serialize tn sz v = Ok b -> (length b <= n)%nat -> vf_pos f = 0%nat ->
  view_write tn sz v n f = (Ok tt, f1) -> view_write tn sz w m f1 = (r, f2) -> exists u, view_read tn sz f2 = Ok u /\ same_view v u.
Proof.
  intros HV E L P W1 W2. destruct (view_round_trip tn sz v HV) as (b' & u & E' & D & Sh & A). rewrite E in E'. injection E' as <-.
  unfold view_write in W1. rewrite E, (write_all f b n L P), Nat.eqb_refl in W1. injection W1 as <-.
  exists u. split; [|split; assumption]. unfold view_read.
  assert (exists t, vf_bytes f2 = b ++ t) as (t & ->); [|apply deserialize_app, D].
  unfold view_write in W2. destruct (mv_serialize tn sz w) as [c|e|].
  - unfold vf_write in W2. cbn [vf_bytes vf_pos] in W2. injection W2 as _ <-. cbn [vf_bytes].
    rewrite firstn_app, firstn_all, Nat.sub_diag, firstn_O, app_nil_r, app_length. replace (length b - (length b + _))%nat with 0%nat by lia.
    cbn [repeat app]. eauto.
  - injection W2 as _ <-. cbn [vf_bytes]. eauto.
  - injection W2 as _ <-. cbn [vf_bytes]. eauto.
Qed.

Definition old_view : mview (list byte) := MV [[1]; [2]] [2] [1] 0.
Definition new_view : mview (list byte) := MV [[3]; [4]] [2] [1] 0.
Definition mixed_view : mview (list byte) := MV [[3]; [2]] [2] [1] 0.
Lemma pair_storable a b : storable_view [100] 1 (MV [[a]; [b]] [2] [1] 0).
Proof.
  split; [|repeat split; try discriminate; cbn; try lia; repeat constructor].
  split; [repeat split; cbn; try lia; repeat constructor; unfold is_size; lia|].
  split; [|cbn; lia]. intros idx HR. cbn in HR. inversion HR as [|i ? is1 ? Hi HR1]; subst. inversion HR1; subst.
  assert (i = 0 \/ i = 1) as [-> | ->] by lia; reflexivity.
Qed.
Lemma torn_mix : exists f1 f2, view_write [100] 1 old_view 100 vf_new = (Ok tt, f1) /\ view_write [100] 1 new_view 42 (vf_rewind f1) = (Throw ERuntime, f2) /\
  view_read [100] 1 f2 = Ok mixed_view.
Proof. eexists. eexists. split; [reflexivity|]. split; reflexivity. Qed.
Lemma mix_is_new : ~ same_view old_view mixed_view /\ ~ same_view new_view mixed_view.
Proof.
  split; intros [_ A].
  - destruct (A [0]) as (x & E1 & E2); [constructor; [lia|constructor]|]. vm_compute in E1, E2; congruence.
  - destruct (A [1]) as (x & E1 & E2); [constructor; [lia|constructor]|]. vm_compute in E1, E2; congruence.
Qed.
Lemma second_case : exists f1 f2, view_write [100] 1 old_view 100 vf_new = (Ok tt, f1) /\ view_write [100] 1 new_view 100 f1 = (Ok tt, f2) /\ view_read [100] 1 f2 = Ok old_view.
Proof. eexists. eexists. split; [reflexivity|]. split; reflexivity. Qed.
Lemma second_wrong : ~ same_view new_view old_view.
Proof. intros [_ A]. destruct (A [0]) as (x & E1 & E2); [constructor; [lia|constructor]|]. vm_compute in E1, E2; congruence. Qed.
