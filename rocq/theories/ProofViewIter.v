(** Proofs for C228 and C229. *)
From Coq Require Import List ZArith Lia Bool.
From Verif Require Import Base ModelSerialization ModelMemView SpecMemView ProofMemView ModelViewIter SpecViewIter.
Import ListNotations.
Open Scope Z_scope.

Section P.
Context {A : Type}.

(** ** C228 *)

Lemma read_run_ok (buf : list A) : forall n p, 0 <= p -> p + Z.of_nat n <= Z.of_nat (length buf) ->
  read_run n p buf = Ok (firstn n (skipn (Z.to_nat p) buf)).
Proof.
  induction n as [|n IH]; intros p Hp HL; [reflexivity|]. cbn [read_run].
  destruct (getZ_in buf p) as (x & G1 & G2); [lia|]. rewrite G1. cbn [bind].
  rewrite IH by lia. cbn [bind]. replace (Z.to_nat (p + 1)) with (S (Z.to_nat p)) by lia.
  f_equal. destruct (skipn (Z.to_nat p) buf) as [|y t] eqn:E.
  - apply nth_error_split in G2. destruct G2 as (l1 & l2 & -> & L). rewrite <- L, skipn_app, Nat.sub_diag, skipn_all in E. discriminate.
  - cbn [firstn]. apply nth_error_split in G2. destruct G2 as (l1 & l2 & -> & L).
    rewrite <- L in *. rewrite skipn_app, Nat.sub_diag, skipn_all in E. cbn in E. injection E as <- <-.
    f_equal. f_equal. replace (S (length l1)) with (length (l1 ++ [x])) by (rewrite app_length; cbn; lia).
    replace (l1 ++ x :: l2) with ((l1 ++ [x]) ++ l2) by (rewrite <- app_assoc; reflexivity).
    rewrite skipn_app, Nat.sub_diag, skipn_all. reflexivity.
Qed.

Lemma nth_firstn_skipn (buf : list A) n k j : (j < n)%nat -> nth_error (firstn n (skipn k buf)) j = nth_error buf (k + j).
Proof.
  revert n j buf. induction k as [|k IH]; intros n j buf H.
  - cbn [skipn Nat.add]. revert j buf H. induction n as [|n IHn]; intros j buf H; [lia|].
    destruct buf as [|b buf]; [destruct j; reflexivity|]. destruct j; [reflexivity|]. cbn. apply IHn. lia.
  - destruct buf as [|b buf]; [cbn; destruct n; cbn; destruct j; reflexivity|]. cbn. apply IH. assumption.
Qed.

Lemma iterate_contiguous (v : mview A) : contiguous v -> mshape v <> [] ->
  exists l, mv_iterate v = Ok l /\ Z.of_nat (length l) = count (mshape v) /\
    forall idx, in_range idx (mshape v) -> exists x, mv_at v idx = Ok x /\
      nth_error l (Z.to_nat (row_major (mshape v) idx)) = Some x.
Proof.
  intros HC HN. assert (HC' := HC). destruct HC' as (HW & HP & HE & HL). destruct HW as (_ & HS & _ & HO).
  pose proof (count_nonneg _ (size_nonneg _ HS)) as C0. destruct HO as [O1 O2].
  unfold mv_iterate, mv_end, mv_begin. rewrite total_count by assumption.
  rewrite (w64_id (count (mshape v))) by (unfold is_size; lia).
  replace (Z.of_nat (length (mdata v)) <? moffset v + count (mshape v)) with false by (symmetry; apply Z.ltb_ge; lia).
  replace (moffset v + count (mshape v) - moffset v) with (count (mshape v)) by lia.
  rewrite read_run_ok by lia. eexists. split; [reflexivity|]. split.
  - rewrite firstn_length, skipn_length. lia.
  - intros idx HR. destruct (proj2 at_checked v idx HC HR) as (x & A1 & A2). exists x. split; [assumption|].
    pose proof (row_major_range _ _ HR). rewrite nth_firstn_skipn by lia.
    rewrite <- A2. f_equal. lia.
Qed.

(** ** C229 *)

Lemma set_nth_error (l : list A) : forall i x, (i < length l)%nat ->
  exists l', set_nth l i x = Ok l' /\ length l' = length l /\ nth_error l' i = Some x /\
    forall j, j <> i -> nth_error l' j = nth_error l j.
Proof.
  induction l as [|h t IH]; intros i x H; cbn in H; [lia|]. destruct i as [|i]; cbn [set_nth].
  - eexists. split; [reflexivity|]. split; [reflexivity|]. split; [reflexivity|]. intros [|j] Hj; [congruence | reflexivity].
  - destruct (IH i x) as (t' & E & L & N & O); [lia|]. rewrite E. cbn [bind]. eexists. split; [reflexivity|].
    split; [cbn; congruence|]. split; [assumption|]. intros [|j] Hj; [reflexivity|]. cbn. apply O. congruence.
Qed.

Lemma py_len_unique a b st n m : py_len a b st n -> py_len a b st m -> n = m.
Proof.
  intros [N0 N] [M0 M]. destruct (Z.lt_trichotomy n m) as [H|[H|H]]; [|assumption|].
  - pose proof (proj1 (M n N0) H) as P. apply (N n N0) in P. lia.
  - pose proof (proj1 (N m M0) H) as P. apply (M m M0) in P. lia.
Qed.

Lemma py_shape_unique ss sh s1 : py_shape ss sh s1 -> forall s2, py_shape ss sh s2 -> s1 = s2.
Proof.
  induction 1 as [shape|i ss n shape shape' H IH|ss n shape shape' H IH|a b st ss n shape len shape' HL H IH]; intros s2 H2; inversion H2; subst.
  - reflexivity.
  - auto.
  - f_equal. auto.
  - f_equal; [eapply py_len_unique; eassumption | auto].
Qed.

Lemma py_index_inj ss sh sh' : py_shape ss sh sh' -> positive_steps ss -> forall i j,
  length i = length sh' -> length j = length sh' ->
  py_index ss sh i = py_index ss sh j -> i = j.
Proof.
  induction 1 as [shape|k ss n shape shape' H IH|ss n shape shape' H IH|a b st ss n shape len shape' HL H IH]; intros P i j Li Lj E.
  - cbn in E. exact E.
  - cbn in E. injection E as E. apply IH; try assumption. inversion P; assumption.
  - destruct i as [|x i]; [discriminate|]. destruct j as [|y j]; [discriminate|]. cbn in E. injection E as E1 E2.
    f_equal; [unfold sl_start in *; cbn in *; lia|]. apply IH; [inversion P; assumption | cbn in *; congruence | cbn in *; congruence | exact E2].
  - destruct i as [|x i]; [discriminate|]. destruct j as [|y j]; [discriminate|]. cbn in E. injection E as E1 E2.
    inversion P as [|? ? P1 P2]; subst. cbn in P1.
    f_equal; [nia|]. apply IH; [assumption | cbn in *; congruence | cbn in *; congruence | exact E2].
Qed.

Lemma denotes_unique ops sh idx r1 : denotes ops sh idx r1 -> forall r2, denotes ops sh idx r2 -> r1 = r2.
Proof.
  induction 1 as [shape idx|ss ops shape shape' idx mid HS H IH|i ops n shape idx mid H IH]; intros r2 H2; inversion H2; subst.
  - reflexivity.
  - match goal with X : py_shape ss shape ?s |- _ => assert (shape' = s) as -> by (eapply py_shape_unique; eassumption) end.
    f_equal. auto.
  - f_equal. auto.
Qed.

(** where the elements of a derived view come from *)
Lemma run_denotes : forall ops (v v' : mview A), wf_view v -> int_shape (mshape v) -> Forall plain_op ops ->
  mv_run v ops = Ok v' ->
  mdata v' = mdata v /\
  exists f, (forall idx, in_range idx (mshape v') -> denotes ops (mshape v) idx (f idx) /\ in_range (f idx) (mshape v) /\
               mv_pos v' idx = mv_pos v (f idx)) /\
            (forall i j, in_range i (mshape v') -> in_range j (mshape v') -> f i = f j -> i = j).
Proof.
  induction ops as [|o ops IH]; intros v v' HW HI HO E.
  - injection E as <-. split; [reflexivity|]. exists (fun i => i). split; [|auto]. intros idx HR. split; [constructor|]. auto.
  - cbn [mv_run] in E. destruct (mv_step v o) as [v1| |] eqn:E1; [|discriminate..]. cbn [bind] in E.
    inversion HO as [|? ? Ho HO']; subst. destruct o as [ss|i]; cbn in E1, Ho.
    + destruct (slice_positive _ _ _ HW HI Ho E1) as (B1 & B2 & B3 & B4 & B5).
      destruct (IH _ _ B1 B2 HO' E) as (D & f & F1 & F2). split; [congruence|].
      exists (fun idx => py_index ss (mshape v) (f idx)). split.
      * intros idx HR. destruct (F1 idx HR) as (G1 & G2 & G3). destruct (B5 _ G2) as [K1 K2].
        split; [econstructor; eassumption|]. split; [assumption|]. congruence.
      * intros x y Hx Hy EE. apply F2; [assumption..|]. destruct (F1 x Hx) as (_ & G2 & _). destruct (F1 y Hy) as (_ & G2' & _).
        eapply py_index_inj; [eassumption | assumption | apply in_range_length; assumption | apply in_range_length; assumption | assumption].
    + destruct (index_agrees v i HW Ho) as [_ HX]. destruct (HX _ E1) as (B1 & B2 & (n & B3 & B3') & B4).
      assert (HI1 : int_shape (mshape v1)) by (rewrite B3 in HI; inversion HI; assumption).
      destruct (IH _ _ B1 HI1 HO' E) as (D & f & F1 & F2). split; [congruence|].
      exists (fun idx => i :: f idx). split.
      * intros idx HR. destruct (F1 idx HR) as (G1 & G2 & G3). rewrite B3. split; [constructor; assumption|].
        split; [constructor; [unfold is_size in Ho; lia | assumption]|]. rewrite G3. apply B4. assumption.
      * intros x y Hx Hy EE. injection EE as EE. auto.
Qed.

Lemma run_access (data : list A) shape ops v : int_shape shape -> count shape <= Z.of_nat (length data) ->
  Z.of_nat (length data) < 2 ^ 63 -> Forall plain_op ops -> mv_run (mv_make data shape) ops = Ok v ->
  mdata v = data /\
  exists f, (forall idx, in_range idx (mshape v) -> denotes ops shape idx (f idx) /\ in_range (f idx) shape /\
               mv_pos v idx = Ok (row_major shape (f idx))) /\
            (forall i j, in_range i (mshape v) -> in_range j (mshape v) -> f i = f j -> i = j).
Proof.
  intros HI HC HL HO E. assert (HS := int_shape_size _ HI).
  destruct (run_denotes ops _ _ (make_wf data shape HS) HI HO E) as (D & f & F1 & F2).
  split; [exact D|]. exists f. split; [|exact F2]. intros idx HR. destruct (F1 idx HR) as (G1 & G2 & G3). cbn in G1, G2.
  split; [assumption|]. split; [assumption|]. rewrite G3. apply make_pos; [assumption | lia | assumption].
Qed.

Lemma getZ_nth (l : list A) p x : 0 <= p -> nth_error l (Z.to_nat p) = Some x -> getZ l p = Ok x.
Proof. intros H E. unfold getZ, get. destruct (Z.ltb_spec p 0); [lia|]. rewrite E. reflexivity. Qed.
Lemma getZ_same (l l' : list A) p : nth_error l (Z.to_nat p) = nth_error l' (Z.to_nat p) -> getZ l p = getZ l' p.
Proof. intros E. unfold getZ, get. rewrite E. reflexivity. Qed.

Lemma write_through (data : list A) shape ops1 ops2 v1 v2 idx x :
  int_shape shape -> count shape <= Z.of_nat (length data) -> Z.of_nat (length data) < 2 ^ 63 ->
  Forall plain_op ops1 -> Forall plain_op ops2 ->
  mv_run (mv_make data shape) ops1 = Ok v1 -> mv_run (mv_make data shape) ops2 = Ok v2 ->
  in_range idx (mshape v1) ->
  exists data' root, mv_store v1 idx x = Ok data' /\ length data' = length data /\
    denotes ops1 shape idx root /\ in_range root shape /\
    (forall j, in_range j (mshape v2) -> exists r, denotes ops2 shape j r /\ in_range r shape /\
       (r = root -> mv_at (mv_with v2 data') j = Ok x) /\
       (r <> root -> mv_at (mv_with v2 data') j = mv_at v2 j)) /\
    mv_at (mv_with v1 data') idx = Ok x /\
    (forall j, in_range j (mshape v1) -> j <> idx -> mv_at (mv_with v1 data') j = mv_at v1 j) /\
    (forall k, (Z.to_nat (count shape) <= k)%nat -> nth_error data' k = nth_error data k).
Proof.
  intros HI HC HL HO1 HO2 E1 E2 HR.
  destruct (run_access _ _ _ _ HI HC HL HO1 E1) as (D1 & f & F1 & F2).
  destruct (run_access _ _ _ _ HI HC HL HO2 E2) as (D2 & g & G1 & _).
  destruct (F1 idx HR) as (N & R & P). pose proof (row_major_range _ _ R) as RM.
  destruct (set_nth_error data (Z.to_nat (row_major shape (f idx))) x) as (data' & S1 & S2 & S3 & S4); [lia|].
  exists data', (f idx). split.
  { unfold mv_store. rewrite P, D1. cbn [bind]. unfold set_nthZ. destruct (Z.ltb_spec (row_major shape (f idx)) 0); [lia | exact S1]. }
  split; [assumption|]. split; [assumption|]. split; [assumption|].
  assert (W : forall v j r, mdata v = data -> in_range r shape -> mv_pos v j = Ok (row_major shape r) ->
    (r = f idx -> mv_at (mv_with v data') j = Ok x) /\ (r <> f idx -> mv_at (mv_with v data') j = mv_at v j)).
  { intros v j r DV Hr PV. pose proof (row_major_range _ _ Hr). split; intros Q.
    - subst r. unfold mv_at. change (mv_pos (mv_with v data') j) with (mv_pos v j). rewrite PV. cbn [bind mv_with mdata].
      apply getZ_nth; [lia | assumption].
    - unfold mv_at. change (mv_pos (mv_with v data') j) with (mv_pos v j). rewrite PV. cbn [bind mv_with mdata]. rewrite DV.
      apply getZ_same. apply S4. intros EQ. apply Q. apply (row_major_inj shape); [assumption..|]. lia. }
  split; [|split; [|split]].
  - intros j Hj. destruct (G1 j Hj) as (N2 & R2 & P2). exists (g j). split; [assumption|]. split; [assumption|].
    apply W; assumption.
  - destruct (W v1 idx (f idx) D1 R P) as [W1 _]. auto.
  - intros j Hj NE. destruct (F1 j Hj) as (N2 & R2 & P2). destruct (W v1 j (f j) D1 R2 P2) as [_ W2].
    apply W2. intros Q. apply NE. apply F2; assumption.
  - intros k Hk. apply S4. lia.
Qed.
End P.

(** ** Refutation of C228 in general *)

Lemma iterate_refuted :
  (exists (data : list Z) v l, mv_slice (mv_make data [4]) [SRange 0 4 2] = Ok v /\ mshape v = [2] /\
     mv_at v [0] = Ok 10 /\ mv_at v [1] = Ok 12 /\ mv_iterate v = Ok l /\ l = [10; 11]) /\
  (exists (data : list Z) v, mv_index (mv_make data [2]) 1 = Ok v /\ mv_at v [] = Ok 11 /\ mv_iterate v = Ok []) /\
  (exists (data : list Z) v, mv_slice (mv_make data [2; 2]) [SAll; SIdx 1] = Ok v /\ mshape v = [2] /\
     mv_at v [1] = Ok 13 /\ mv_iterate v = Ok [11; 12]).
Proof.
  split; [|split].
  - exists [10; 11; 12; 13]. eexists. eexists. repeat split; reflexivity.
  - exists [10; 11]. eexists. repeat split; reflexivity.
  - exists [10; 11; 12; 13]. eexists. repeat split; reflexivity.
Qed.
