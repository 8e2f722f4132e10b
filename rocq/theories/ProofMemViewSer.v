From Coq Require Import List ZArith Lia Bool.
From Verif Require Import Base BaseFacts ModelSerialization SpecSerialization ProofSerialization ModelMemView SpecMemView ProofMemView.
Import ListNotations.
Open Scope Z_scope.

Notation zlen l := (Z.of_nat (length l)).

Lemma sub_bytes_prefix p q a x c pos len : p ++ q = a ++ x ++ c -> zlen a = pos -> zlen x = len ->
  pos + len <= zlen p -> sub_bytes p pos len = Ok x.
Proof.
  intros E Ha Hx Hp. unfold sub_bytes. subst pos len.
  replace (0 <=? zlen a) with true by (symmetry; apply Z.leb_le; lia).
  replace (0 <=? zlen x) with true by (symmetry; apply Z.leb_le; lia).
  replace (zlen a + zlen x <=? zlen p) with true by (symmetry; apply Z.leb_le; lia).
  cbn [andb]. rewrite !Nat2Z.id. f_equal.
  assert (X : firstn (length x) (skipn (length a) (p ++ q)) = x).
  { rewrite E, skipn_app, skipn_all, Nat.sub_diag. cbn. rewrite firstn_app, firstn_all, Nat.sub_diag, firstn_O. apply app_nil_r. }
  rewrite skipn_app, firstn_app in X.
  replace (length x - length (skipn (length a) p))%nat with O in X by (rewrite skipn_length; lia).
  rewrite firstn_O, app_nil_r in X. exact X.
Qed.

Lemma size_bytes_len z : zlen (size_bytes z) = 8.
Proof. unfold size_bytes. rewrite le_bytes_length. reflexivity. Qed.

Lemma size_bytes_value z : is_size z -> le_value (size_bytes z) = z.
Proof. intros H. unfold size_bytes. rewrite le_value_bytes. apply Z.mod_small. exact H. Qed.

Lemma flat_size_len xs : zlen (flat_map size_bytes xs) = 8 * zlen xs.
Proof. induction xs as [|x xs IH]; [reflexivity|]. cbn [flat_map]. rewrite app_length, Nat2Z.inj_add, IH, size_bytes_len. cbn [length]. lia. Qed.

Lemma chunks_sizes xs : Forall is_size xs -> map le_value (chunks (length xs) 8 (flat_map size_bytes xs)) = xs.
Proof.
  induction 1 as [|x xs Hx HX IH]; [reflexivity|]. cbn [length chunks flat_map map].
  assert (L : length (size_bytes x) = 8%nat) by apply le_bytes_length.
  rewrite firstn_app, skipn_app, L, Nat.sub_diag, firstn_O, app_nil_r, <- L, firstn_all, skipn_all, L.
  cbn [app skipn]. rewrite size_bytes_value, IH by assumption. reflexivity.
Qed.

Lemma read_sizes_prefix p q a xs c pos : p ++ q = a ++ flat_map size_bytes xs ++ c -> zlen a = pos ->
  Forall is_size xs -> zlen xs < 2 ^ 60 -> pos + 8 * zlen xs <= zlen p -> read_sizes p pos (zlen xs) = Ok xs.
Proof.
  intros E Ha HX HL Hp. unfold read_sizes. replace (2 ^ 60 <=? zlen xs) with false by (symmetry; apply Z.leb_gt; assumption).
  rewrite (sub_bytes_prefix p q a (flat_map size_bytes xs) c) by (auto; rewrite flat_size_len; reflexivity).
  cbn [bind]. rewrite Nat2Z.id, chunks_sizes by assumption. reflexivity.
Qed.

Lemma bytes_eqb_refl l : bytes_eqb l l = true.
Proof. induction l; cbn; [reflexivity|]. rewrite Z.eqb_refl. assumption. Qed.

Lemma bytes_eqb_eq a : forall b, bytes_eqb a b = true <-> a = b.
Proof.
  induction a as [|x a IH]; intros [|y b]; cbn; split; intros H; try discriminate; auto.
  - apply andb_true_iff in H as [H1 H2]. apply Z.eqb_eq in H1. apply IH in H2. congruence.
  - injection H as -> ->. rewrite Z.eqb_refl. cbn. apply IH. reflexivity.
Qed.

Definition enc_view (tn : list byte) (shape strides : list Z) (off : Z) (d : list byte) : list byte :=
  size_bytes (zlen tn) ++ tn ++ size_bytes (zlen shape) ++ flat_map size_bytes shape ++
  flat_map size_bytes strides ++ size_bytes off ++ d.

Lemma enc_view_len tn shape strides off d :
  zlen (enc_view tn shape strides off d) = 24 + zlen tn + 8 * zlen shape + 8 * zlen strides + zlen d.
Proof.
  unfold enc_view. rewrite !app_length, !Nat2Z.inj_add, !flat_size_len, !size_bytes_len. lia.
Qed.

Lemma deserialize_prefix tn sz shape strides off d p q :
  p ++ q = enc_view tn shape strides off d ->
  shape <> [] -> length strides = length shape -> Forall is_size shape -> Forall is_size strides ->
  0 < sz -> count shape < 2 ^ 63 -> count shape * sz < 2 ^ 62 -> zlen d = count shape * sz ->
  zlen tn <= 2 ^ 32 -> zlen shape <= 2 ^ 32 ->
  (exists e, mv_deserialize tn sz p = Throw e /\ zlen p < zlen (enc_view tn shape strides off d)) \/
  (mv_deserialize tn sz p = Ok (MV (chunks (Z.to_nat (count shape)) (Z.to_nat sz) d) shape strides 0) /\
   zlen p = zlen (enc_view tn shape strides off d)).
Proof.
  intros E HN HL HS HT Hsz HC HCs Hd Htn Hsh.
  assert (LE := enc_view_len tn shape strides off d).
  assert (LP : zlen p <= zlen (enc_view tn shape strides off d)) by (rewrite <- E, app_length; lia).
  assert (HLz : zlen strides = zlen shape) by lia.
  assert (HC0 : 0 <= count shape) by (apply count_nonneg, size_nonneg; assumption).
  assert (W8 : w64 (0 + 8) = 8) by reflexivity.
  assert (W1 : w64 (8 + zlen tn) = 8 + zlen tn) by (apply w64_id; unfold is_size; lia).
  assert (W2 : w64 (8 + zlen tn + 8) = 16 + zlen tn) by (rewrite w64_id by (unfold is_size; lia); lia).
  assert (W3 : w64 (8 * zlen shape) = 8 * zlen shape) by (apply w64_id; unfold is_size; lia).
  assert (W4 : w64 (16 + zlen tn + 8 * zlen shape) = 16 + zlen tn + 8 * zlen shape) by (apply w64_id; unfold is_size; lia).
  assert (W5 : w64 (16 + zlen tn + 8 * zlen shape + 8 * zlen shape) = 16 + zlen tn + 16 * zlen shape) by (rewrite w64_id by (unfold is_size; lia); lia).
  assert (W6 : w64 (16 + zlen tn + 16 * zlen shape + 8) = 24 + zlen tn + 16 * zlen shape) by (rewrite w64_id by (unfold is_size; lia); lia).
  unfold mv_deserialize. cbv zeta. rewrite W8.
  destruct (Z.ltb_spec (zlen p) 8) as [B1|B1]; [left; eexists; split; [reflexivity|lia]|].
  rewrite (sub_bytes_prefix p q [] (size_bytes (zlen tn)) (tn ++ size_bytes (zlen shape) ++ flat_map size_bytes shape ++ flat_map size_bytes strides ++ size_bytes off ++ d)) by
    (rewrite ?size_bytes_len; auto; cbn; lia).
  cbn [bind]. rewrite size_bytes_value by (unfold is_size; lia). rewrite W1.
  destruct (Z.ltb_spec (zlen p) (8 + zlen tn)) as [B2|B2]; [left; eexists; split; [reflexivity|lia]|].
  replace (2 ^ 63 - 1 <? zlen tn) with false by (symmetry; apply Z.ltb_ge; lia).
  rewrite (sub_bytes_prefix p q (size_bytes (zlen tn)) tn (size_bytes (zlen shape) ++ flat_map size_bytes shape ++ flat_map size_bytes strides ++ size_bytes off ++ d)) by
    (rewrite ?size_bytes_len; auto; cbn; lia).
  cbn [bind]. rewrite bytes_eqb_refl. cbn [negb]. rewrite W2.
  destruct (Z.ltb_spec (zlen p) (16 + zlen tn)) as [B3|B3]; [left; eexists; split; [reflexivity|lia]|].
  rewrite (sub_bytes_prefix p q (size_bytes (zlen tn) ++ tn) (size_bytes (zlen shape)) (flat_map size_bytes shape ++ flat_map size_bytes strides ++ size_bytes off ++ d));
    [| rewrite E; unfold enc_view; rewrite <- !app_assoc; reflexivity | rewrite app_length, Nat2Z.inj_add, size_bytes_len; reflexivity | apply size_bytes_len | lia].
  cbn [bind]. rewrite size_bytes_value by (unfold is_size; lia). rewrite W3, W4.
  destruct (Z.ltb_spec (zlen p) (16 + zlen tn + 8 * zlen shape)) as [B4|B4]; [left; eexists; split; [reflexivity|lia]|].
  rewrite (read_sizes_prefix p q (size_bytes (zlen tn) ++ tn ++ size_bytes (zlen shape)) shape (flat_map size_bytes strides ++ size_bytes off ++ d));
    [| rewrite E; unfold enc_view; rewrite <- !app_assoc; reflexivity | rewrite !app_length, !Nat2Z.inj_add, !size_bytes_len; lia | assumption | lia | lia].
  cbn [bind]. rewrite W5.
  destruct (Z.ltb_spec (zlen p) (16 + zlen tn + 16 * zlen shape)) as [B5|B5]; [left; eexists; split; [reflexivity|lia]|].
  assert (RS : read_sizes p (16 + zlen tn + 8 * zlen shape) (zlen shape) = Ok strides).
  { rewrite <- HLz at 2. apply (read_sizes_prefix p q (size_bytes (zlen tn) ++ tn ++ size_bytes (zlen shape) ++ flat_map size_bytes shape) strides (size_bytes off ++ d));
    [ rewrite E; unfold enc_view; rewrite <- !app_assoc; reflexivity | rewrite !app_length, !Nat2Z.inj_add, !size_bytes_len, flat_size_len; lia | assumption | lia | lia]. }
  rewrite RS.
  cbn [bind]. rewrite W6.
  destruct (Z.ltb_spec (zlen p) (24 + zlen tn + 16 * zlen shape)) as [B6|B6]; [left; eexists; split; [reflexivity|lia]|].
  rewrite (sub_bytes_prefix p q (size_bytes (zlen tn) ++ tn ++ size_bytes (zlen shape) ++ flat_map size_bytes shape ++ flat_map size_bytes strides) (size_bytes off) d);
    [| rewrite E; unfold enc_view; rewrite <- !app_assoc; reflexivity | rewrite !app_length, !Nat2Z.inj_add, !size_bytes_len, !flat_size_len; lia | apply size_bytes_len | lia].
  cbn [bind]. rewrite total_count by assumption. rewrite (w64_id (count shape)) by (unfold is_size; lia).
  rewrite (w64_id (count shape * sz)) by (unfold is_size; nia).
  rewrite (w64_id (_ + count shape * sz)) by (unfold is_size; lia).
  destruct (Z.ltb_spec (zlen p) (24 + zlen tn + 16 * zlen shape + count shape * sz)) as [B7|B7]; [left; eexists; split; [reflexivity|lia]|].
  replace (2 ^ 63 <=? count shape * sz) with false by (symmetry; apply Z.leb_gt; lia).
  rewrite (sub_bytes_prefix p q (size_bytes (zlen tn) ++ tn ++ size_bytes (zlen shape) ++ flat_map size_bytes shape ++ flat_map size_bytes strides ++ size_bytes off) d []);
    [| rewrite E; unfold enc_view; rewrite <- !app_assoc, app_nil_r; reflexivity | rewrite !app_length, !Nat2Z.inj_add, !size_bytes_len, !flat_size_len; lia | assumption | lia].
  right. split; [reflexivity | lia].
Qed.

(** The object representations of the elements. *)
Lemma concat_len sz (l : list (list byte)) : Forall (fun e => zlen e = sz) l -> zlen (concat l) = zlen l * sz.
Proof. induction 1 as [|x l Hx HL IH]; [reflexivity|]. cbn [concat length]. rewrite app_length, Nat2Z.inj_add, IH, Hx. lia. Qed.

Lemma skipn_concat sz n (l : list (list byte)) : Forall (fun e => length e = sz) l -> skipn (n * sz) (concat l) = concat (skipn n l).
Proof.
  revert l. induction n as [|n IH]; intros l HL; [reflexivity|]. destruct l as [|x l]; [cbn; apply skipn_nil|].
  inversion HL; subst. cbn [Nat.mul concat skipn]. rewrite skipn_app, skipn_all2 by lia.
  rewrite Nat.add_comm, Nat.add_sub. cbn [app]. apply IH. assumption.
Qed.

Lemma firstn_concat sz n (l : list (list byte)) : Forall (fun e => length e = sz) l -> firstn (n * sz) (concat l) = concat (firstn n l).
Proof.
  revert l. induction n as [|n IH]; intros l HL; [reflexivity|]. destruct l as [|x l]; [cbn; apply firstn_nil|].
  inversion HL; subst. cbn [Nat.mul concat firstn]. rewrite firstn_app, firstn_all2 by lia.
  rewrite Nat.add_comm, Nat.add_sub. f_equal. apply IH. assumption.
Qed.

Lemma chunks_concat sz (l : list (list byte)) : Forall (fun e => length e = sz) l -> chunks (length l) sz (concat l) = l.
Proof.
  induction 1 as [|x l Hx HL IH]; [reflexivity|]. cbn [length chunks concat].
  rewrite firstn_app, skipn_app, Hx, Nat.sub_diag, firstn_O, app_nil_r, <- Hx, firstn_all, skipn_all, Hx.
  cbn [app skipn]. rewrite IH. reflexivity.
Qed.

Lemma Forall_skipn {B} (P : B -> Prop) n : forall l, Forall P l -> Forall P (skipn n l).
Proof. induction n; intros l H; [assumption|]. destruct H; [constructor|]. cbn. auto. Qed.
Lemma Forall_firstn' {B} (P : B -> Prop) n : forall l, Forall P l -> Forall P (firstn n l).
Proof. induction n; intros l H; [constructor|]. destruct H; [constructor|]. cbn. auto. Qed.

Definition payload (v : mview (list byte)) : list (list byte) :=
  firstn (Z.to_nat (count (mshape v))) (skipn (Z.to_nat (moffset v)) (mdata v)).

Lemma storable_facts tn sz v : storable_view tn sz v ->
  0 <= count (mshape v) /\ count (mshape v) < 2 ^ 63 /\ count (mshape v) * sz < 2 ^ 62 /\
  0 <= moffset v /\ zlen (payload v) = count (mshape v) /\ Forall (fun e => length e = Z.to_nat sz) (payload v).
Proof.
  intros (((HL & HS & HT & HO) & HP & HB & HD) & HN & Hsz & HE & HM & _).
  assert (HC := count_nonneg _ (size_nonneg _ HS)). unfold is_size in HO.
  repeat split; try lia; [nia| |].
  - unfold payload. rewrite firstn_length, skipn_length. lia.
  - unfold payload. apply Forall_firstn', Forall_skipn. eapply Forall_impl; [|exact HE]. cbn. intros a Ha. lia.
Qed.

Lemma serialize_enc tn sz v : storable_view tn sz v ->
  mv_serialize tn sz v = Ok (enc_view tn (mshape v) (mstrides v) (moffset v) (concat (payload v))).
Proof.
  intros HV. destruct (storable_facts _ _ _ HV) as (F1 & F2 & F3 & F4 & F5 & F6).
  destruct HV as (((HL & HS & HT & HO) & HP & HB & HD) & HN & Hsz & HE & HM & _).
  unfold mv_serialize. rewrite total_count by assumption.
  rewrite (w64_id (count _)) by (unfold is_size; lia). rewrite w64_id by (unfold is_size; nia).
  assert (HE' : Forall (fun e : list byte => length e = Z.to_nat sz) (mdata v)).
  { eapply Forall_impl; [|exact HE]. cbn. intros a Ha. lia. }
  unfold sub_bytes. rewrite (concat_len sz) by assumption.
  replace (0 <=? moffset v * sz) with true by (symmetry; apply Z.leb_le; nia).
  replace (0 <=? count (mshape v) * sz) with true by (symmetry; apply Z.leb_le; nia).
  replace (_ <=? zlen (mdata v) * sz) with true by (symmetry; apply Z.leb_le; nia).
  cbn [andb bind]. unfold enc_view. repeat f_equal.
  rewrite !Z2Nat.inj_mul by lia. rewrite (skipn_concat (Z.to_nat sz)) by assumption.
  rewrite (firstn_concat (Z.to_nat sz)) by (apply Forall_skipn; assumption). reflexivity.
Qed.

Lemma payload_bytes tn sz v : storable_view tn sz v -> zlen (concat (payload v)) = count (mshape v) * sz.
Proof.
  intros HV. destruct (storable_facts _ _ _ HV) as (F1 & F2 & F3 & F4 & F5 & F6). rewrite <- F5.
  apply concat_len. eapply Forall_impl; [|exact F6]. cbn. intros a Ha.
  destruct HV as (_ & _ & Hsz & _). lia.
Qed.

Lemma nth_error_firstn {B} n : forall (l : list B) k, (k < n)%nat -> nth_error (firstn n l) k = nth_error l k.
Proof. induction n; intros l k Hk; [lia|]. destruct l, k; cbn; auto. apply IHn. lia. Qed.
Lemma nth_error_skipn {B} n : forall (l : list B) k, nth_error (skipn n l) k = nth_error l (n + k)%nat.
Proof. induction n; intros l k; [reflexivity|]. destruct l; cbn; [destruct k; reflexivity|]. apply IHn. Qed.

Lemma view_round_trip tn sz v : storable_view tn sz v ->
  exists b v', mv_serialize tn sz v = Ok b /\ mv_deserialize tn sz b = Ok v' /\
    mshape v' = mshape v /\
    forall idx, in_range idx (mshape v) -> exists x, mv_at v idx = Ok x /\ mv_at v' idx = Ok x.
Proof.
  intros HV. exists (enc_view tn (mshape v) (mstrides v) (moffset v) (concat (payload v))).
  destruct (storable_facts _ _ _ HV) as (F1 & F2 & F3 & F4 & F5 & F6).
  assert (PB := payload_bytes _ _ _ HV).
  assert (SE := serialize_enc _ _ _ HV).
  destruct HV as ((HW & HP & HB & HD) & HN & Hsz & HE & HM & HL1 & HL2). assert (HW' := HW). destruct HW' as (HL & HS & HT & HO).
  destruct (deserialize_prefix tn sz (mshape v) (mstrides v) (moffset v) (concat (payload v))
    (enc_view tn (mshape v) (mstrides v) (moffset v) (concat (payload v))) []) as [(e & _ & X)|[X _]]; auto using app_nil_r; try lia.
  eexists. split; [assumption|]. split; [exact X|]. split; [reflexivity|].
  intros idx HR.
  rewrite <- F5, Nat2Z.id, chunks_concat by assumption.
  set (v' := MV (payload v) (mshape v) (mstrides v) 0).
  assert (RM := row_major_range _ _ HR).
  assert (HW2 : wf_view v') by (repeat split; cbn; auto; lia).
  assert (P1 : mv_pos v' idx = Ok (row_major (mshape v) idx)).
  { rewrite pos_dot by assumption. f_equal. cbn. specialize (HP _ HR). rewrite pos_dot in HP by assumption.
    injection HP as HP. rewrite <- (w64_id (row_major (mshape v) idx)) by (unfold is_size; lia).
    assert (w64 (moffset v + dot idx (mstrides v)) = w64 (moffset v + row_major (mshape v) idx)).
    { rewrite HP. symmetry. apply w64_id. unfold is_size. lia. }
    replace (dot idx (mstrides v)) with (- moffset v + (moffset v + dot idx (mstrides v))) by ring.
    replace (row_major (mshape v) idx) with (- moffset v + (moffset v + row_major (mshape v) idx)) by ring.
    apply w64_add_cong; [reflexivity | assumption]. }
  unfold mv_at. rewrite (HP _ HR), P1. cbn [bind mdata].
  destruct (getZ_in (mdata v) (moffset v + row_major (mshape v) idx)) as (x & G1 & G2); [lia|].
  destruct (getZ_in (mdata v') (row_major (mshape v) idx)) as (y & Y1 & Y2); [cbn; lia|].
  exists x. split; [assumption|]. rewrite Y1. f_equal. cbn in Y2. unfold payload in Y2.
  rewrite nth_error_firstn, nth_error_skipn in Y2 by lia.
  rewrite Z2Nat.inj_add in G2 by lia. congruence.
Qed.

Lemma truncated_view_rejected tn sz v b p : storable_view tn sz v -> mv_serialize tn sz v = Ok b -> proper_prefix p b ->
  exists e, mv_deserialize tn sz p = Throw e.
Proof.
  intros HV E (q & Hq & HE).
  destruct (storable_facts _ _ _ HV) as (F1 & F2 & F3 & F4 & F5 & F6).
  assert (PB := payload_bytes _ _ _ HV). rewrite (serialize_enc _ _ _ HV) in E. injection E as <-.
  destruct HV as ((HW & HP & HB & HD) & HN & Hsz & _ & HM & HL1 & HL2). destruct HW as (HL & HS & HT & HO).
  destruct (deserialize_prefix tn sz (mshape v) (mstrides v) (moffset v) (concat (payload v)) p q) as [(e & X & _)|[_ X]]; auto; try lia.
  - eauto.
  - exfalso. rewrite HE in X. rewrite app_length in X. destruct q; [congruence|]. cbn in X. lia.
Qed.

(** ** C17: deserialize itself never reads outside its input *)

Lemma le_value_range (l : list byte) : Forall (fun b => 0 <= b < 256) l -> 0 <= le_value l < 256 ^ Z.of_nat (length l).
Proof.
  induction 1 as [|x l Hx HL IH]; [cbn; lia|]. cbn [le_value length].
  rewrite Nat2Z.inj_succ, Z.pow_succ_r by lia. lia.
Qed.

Lemma sub_bytes_ok (buf : list byte) pos len : 0 <= pos -> 0 <= len -> pos + len <= zlen buf ->
  exists b, sub_bytes buf pos len = Ok b /\ zlen b = len /\ (Forall (fun b => 0 <= b < 256) buf -> Forall (fun b => 0 <= b < 256) b).
Proof.
  intros H1 H2 H3. unfold sub_bytes.
  replace (0 <=? pos) with true by (symmetry; apply Z.leb_le; lia).
  replace (0 <=? len) with true by (symmetry; apply Z.leb_le; lia).
  replace (pos + len <=? zlen buf) with true by (symmetry; apply Z.leb_le; lia).
  cbn [andb]. eexists. split; [reflexivity|]. split.
  - rewrite firstn_length, skipn_length. lia.
  - intros HB. apply Forall_firstn', Forall_skipn. assumption.
Qed.

Lemma w64_small a n : 0 <= a -> ~ (n < w64 a) -> a < 2 ^ 64 -> a <= n.
Proof. intros H1 H2 H3. rewrite w64_id in H2 by (split; assumption). lia. Qed.

Lemma deserialize_no_ub tn sz (buf : list byte) : 0 < sz -> zlen buf < 2 ^ 62 -> Forall (fun b => 0 <= b < 256) buf ->
  mv_deserialize tn sz buf <> UB.
Proof.
  intros Hsz HL HB. unfold mv_deserialize. cbv zeta. change (w64 (0 + 8)) with 8.
  destruct (Z.ltb_spec (zlen buf) 8) as [B1|B1]; [discriminate|].
  destruct (sub_bytes_ok buf 0 8) as (b1 & E1 & L1 & R1); [lia..|]. rewrite E1. cbn [bind].
  assert (V1 := le_value_range _ (R1 HB)). rewrite L1 in V1. set (tl := le_value b1) in *. clearbody tl.
  destruct (Z.ltb_spec (zlen buf) (w64 (8 + tl))) as [B2|B2]; [discriminate|].
  destruct (Z.ltb_spec (2 ^ 63 - 1) tl) as [B3|B3]; [discriminate|].
  apply Z.le_ngt, w64_small in B2; [|lia..]. rewrite (w64_id (8 + tl)) by (unfold is_size; lia).
  destruct (sub_bytes_ok buf 8 tl) as (nm & E2 & L2 & R2); [lia..|]. rewrite E2. cbn [bind].
  destruct (bytes_eqb nm tn); cbn [negb]; [|discriminate].
  rewrite (w64_id (8 + tl + 8)) by (unfold is_size; lia).
  destruct (Z.ltb_spec (zlen buf) (8 + tl + 8)) as [B4|B4]; [discriminate|].
  destruct (sub_bytes_ok buf (8 + tl) 8) as (b3 & E3 & L3 & R3); [lia..|]. rewrite E3. cbn [bind].
  assert (V3 := le_value_range _ (R3 HB)). rewrite L3 in V3. set (nd := le_value b3) in *. clearbody nd.
  destruct (Z.ltb_spec (zlen buf) (w64 (8 + tl + 8 + w64 (8 * nd)))) as [B5|B5]; [discriminate|].
  unfold read_sizes at 1. destruct (Z.leb_spec (2 ^ 60) nd) as [B6|B6]; [discriminate|].
  rewrite (w64_id (8 * nd)) in * by (unfold is_size; lia).
  apply Z.le_ngt, w64_small in B5; [|lia..]. rewrite (w64_id (8 + tl + 8 + 8 * nd)) by (unfold is_size; lia).
  destruct (sub_bytes_ok buf (8 + tl + 8) (8 * nd)) as (b4 & E4 & L4 & _); [lia..|]. rewrite E4. cbn [bind].
  set (shape := map le_value _). clearbody shape.
  destruct (Z.ltb_spec (zlen buf) (w64 (8 + tl + 8 + 8 * nd + 8 * nd))) as [B7|B7]; [discriminate|].
  apply Z.le_ngt, w64_small in B7; [|lia..]. rewrite (w64_id (8 + tl + 8 + 8 * nd + 8 * nd)) by (unfold is_size; lia).
  unfold read_sizes. replace (2 ^ 60 <=? nd) with false by (symmetry; apply Z.leb_gt; lia).
  destruct (sub_bytes_ok buf (8 + tl + 8 + 8 * nd) (8 * nd)) as (b5 & E5 & L5 & _); [lia..|]. rewrite E5. cbn [bind].
  rewrite (w64_id (_ + 8)) by (unfold is_size; lia).
  destruct (Z.ltb_spec (zlen buf) (8 + tl + 8 + 8 * nd + 8 * nd + 8)) as [B8|B8]; [discriminate|].
  destruct (sub_bytes_ok buf (8 + tl + 8 + 8 * nd + 8 * nd) 8) as (b6 & E6 & L6 & _); [lia..|]. rewrite E6. cbn [bind].
  match goal with |- context [zlen buf <? ?e] => destruct (Z.ltb_spec (zlen buf) e) as [B9|B9]; [discriminate|] end.
  match goal with |- context [2 ^ 63 <=? ?e] => destruct (Z.leb_spec (2 ^ 63) e) as [B10|B10]; [discriminate|] end.
  assert (T0 : 0 <= compute_total_size shape).
  { destruct shape; [cbn; lia|]. rewrite total_count by discriminate. apply w64_size. }
  rewrite (w64_id (_ * sz)) in * by (unfold is_size; nia).
  apply Z.le_ngt, w64_small in B9; [|nia..].
  match goal with |- context [sub_bytes buf ?p ?l] => destruct (sub_bytes_ok buf p l) as (b7 & E7 & _); [nia..|]; rewrite E7 end.
  discriminate.
Qed.

(** ** Refutations *)

Definition bs (l : list Z) : list (list byte) := map (fun x => [x]) l.
Definition col (l : list (list byte)) : mview (list byte) :=
  MV l [2] [2] 0.

Lemma strided_reshape_refuted : ~ (forall (data : list Z) shape ss v new_shape v' idx idx',
  int_shape shape -> count shape <= zlen data -> positive_steps ss ->
  mv_slice (mv_make data shape) ss = Ok v ->
  count new_shape = count (mshape v) -> mv_reshape v new_shape = Ok v' ->
  in_range idx (mshape v) -> in_range idx' new_shape ->
  row_major (mshape v) idx = row_major new_shape idx' -> mv_at v idx = mv_at v' idx').
Proof.
  intros H.
  assert (X := H [10; 11; 12; 13] [2; 2] [SAll; SIdx 0] (MV [10; 11; 12; 13] [2] [2] 0) [2]
    (MV [10; 11; 12; 13] [2] [1] 0) [1] [1]).
  assert (mv_at (MV [10; 11; 12; 13] [2] [2] 0) [1] = mv_at (MV [10; 11; 12; 13] [2] [1] 0) [1]).
  { apply X; try reflexivity; try (repeat constructor; lia); cbn; lia. }
  discriminate.
Qed.

Lemma strided_serialize_refuted : exists data shape ss v b v' idx,
  int_shape shape /\ count shape <= zlen data /\ positive_steps ss /\ Forall (fun e => zlen e = 1) data /\
  mv_slice (mv_make data shape) ss = Ok v /\ mv_serialize [100] 1 v = Ok b /\ mv_deserialize [100] 1 b = Ok v' /\
  in_range idx (mshape v) /\ mv_at v idx = Ok [12] /\ mv_at v' idx = UB.
Proof.
  exists (bs [10; 11; 12; 13]), [2; 2], [SAll; SIdx 0], (MV (bs [10; 11; 12; 13]) [2] [2] 0).
  eexists. exists (MV (bs [10; 11]) [2] [2] 0), [1].
  split; [repeat constructor; lia|]. split; [cbn; lia|]. split; [repeat constructor|]. split; [repeat constructor|].
  split; [reflexivity|]. split; [reflexivity|]. split; [vm_compute; reflexivity|].
  split; [repeat constructor; lia|]. split; reflexivity.
Qed.

Lemma scalar_serialize_refuted : exists v b v',
  mv_run (mv_make (bs [10]) [1]) [OIndex 0] = Ok v /\ mv_serialize [100] 1 v = Ok b /\
  mv_deserialize [100] 1 b = Ok v' /\ mv_at v [] = Ok [10] /\ mv_at v' [] = UB.
Proof.
  exists (MV (bs [10]) [] [] 0). eexists. exists (MV [] [] [] 0).
  repeat (split; [vm_compute; reflexivity|]). reflexivity.
Qed.

Definition hostile : list byte :=
  enc_view [100] [1; 3] [0; 1000] 0 [7; 7; 7].
Definition hostile2 : list byte :=
  enc_view [100] [2 ^ 32; 2 ^ 32] [1; 1] 0 [].

Lemma hostile_refuted :
  (exists buf v idx, mv_deserialize [100] 1 buf = Ok v /\ in_range idx (mshape v) /\ mv_at v idx = UB) /\
  (exists buf v idx, mv_deserialize [100] 1 buf = Ok v /\ mstrides v = [1; 1] /\ in_range idx (mshape v) /\ mv_at v idx = UB).
Proof.
  split.
  - exists hostile, (MV (bs [7; 7; 7]) [1; 3] [0; 1000] 0), [0; 2].
    split; [vm_compute; reflexivity|]. split; [repeat constructor; lia | reflexivity].
  - exists hostile2, (MV [] [2 ^ 32; 2 ^ 32] [1; 1] 0), [0; 0].
    split; [vm_compute; reflexivity|]. split; [reflexivity|]. split; [repeat constructor; lia | reflexivity].
Qed.

Lemma negative_step_refuted : exists (data : list Z) v,
  mv_slice (mv_make data [5]) [SRange 5 0 (-1)] = Ok v /\ zlen data = 5 /\
  in_range [0] (mshape v) /\ mv_at v [0] = UB.
Proof.
  exists [1; 2; 3; 4; 5]. eexists. split; [vm_compute; reflexivity|]. split; [reflexivity|].
  split; [repeat constructor; cbn; lia | reflexivity].
Qed.

Lemma huge_step_refuted : exists (data : list Z), mv_slice (mv_make data [5]) [SRange 0 5 (2 ^ 31 - 1)] = UB.
Proof. exists [1; 2; 3; 4; 5]. reflexivity. Qed.

Lemma reshape_refuted :
  (exists v', mv_reshape (mv_make (@nil Z) [0]) [2 ^ 32; 2 ^ 32] = Ok v' /\ mv_at v' [0; 0] = UB) /\
  (exists v', mv_reshape (mv_make (@nil Z) [0]) [] = Ok v' /\ mv_at v' [] = UB) /\
  mv_reshape (MV [5] [] [] 0) [1] = Throw EInvalidArgument.
Proof.
  split; [|split].
  - eexists. split; [vm_compute; reflexivity|]. reflexivity.
  - eexists. split; [vm_compute; reflexivity|]. reflexivity.
  - reflexivity.
Qed.

Lemma to_string_refuted : exists data : list Z, zlen data = count [2; 3] /\ mv_preview 10 (mv_make data [2; 3]) = UB.
Proof. exists [1; 2; 3; 4; 5; 6]. split; reflexivity. Qed.

Lemma size_refuted {A} :
  (forall fuel (v : mview A) r, mv_size fuel v = Some r -> r = 1) /\
  (forall fuel (v : mview A) n0, mshape v = [n0; 0] -> mv_size fuel v = None).
Proof.
  split; [|apply size_hangs]. intros fuel v r. apply size_loop_one.
Qed.

Lemma copy_refuted : exists (data : list Z) fuel n v',
  mv_size fuel (mv_make data [2]) = Some n /\ mv_copy n (mv_make data [2]) = Ok v' /\
  in_range [1] (mshape v') /\ mv_at (mv_make data [2]) [1] = Ok 8 /\ mv_at v' [1] = UB.
Proof.
  exists [7; 8], 5%nat, 1. eexists. repeat (split; [vm_compute; reflexivity|]).
  split; [repeat constructor; cbn; lia|]. split; reflexivity.
Qed.
