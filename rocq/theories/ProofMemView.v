From Coq Require Import List ZArith Lia Bool.
From Verif Require Import Base BaseFacts ModelSerialization SpecSerialization ProofSerialization ModelMemView SpecMemView.
Import ListNotations.
Open Scope Z_scope.

(** ** Arithmetic modulo 2^64 *)

Lemma w64_id z : is_size z -> w64 z = z.
Proof. intros H. apply Z.mod_small. exact H. Qed.
Lemma w64_size z : is_size (w64 z).
Proof. apply Z.mod_pos_bound. reflexivity. Qed.
Lemma w64_add_l a b : w64 (w64 a + b) = w64 (a + b).
Proof. apply Zplus_mod_idemp_l. Qed.
Lemma w64_add_r a b : w64 (a + w64 b) = w64 (a + b).
Proof. apply Zplus_mod_idemp_r. Qed.
Lemma w64_mul_l a b : w64 (w64 a * b) = w64 (a * b).
Proof. apply Zmult_mod_idemp_l. Qed.
Lemma w64_mul_r a b : w64 (a * w64 b) = w64 (a * b).
Proof. apply Zmult_mod_idemp_r. Qed.
Lemma w64_w64 a : w64 (w64 a) = w64 a.
Proof. apply Zmod_mod. Qed.
Lemma w64_add_cong a b c d : w64 a = w64 b -> w64 c = w64 d -> w64 (a + c) = w64 (b + d).
Proof. intros H1 H2. rewrite <- w64_add_l, H1, w64_add_l, <- w64_add_r, H2, w64_add_r. reflexivity. Qed.

Lemma count_nonneg sh : Forall (fun n => 0 <= n) sh -> 0 <= count sh.
Proof. induction 1; cbn; [lia | nia]. Qed.

Lemma size_nonneg sh : Forall is_size sh -> Forall (fun n => 0 <= n) sh.
Proof. apply Forall_impl. intros a H. apply H. Qed.

Lemma strides_cons n sh : compute_strides (n :: sh) = w64 (count sh) :: compute_strides sh.
Proof.
  revert n. induction sh as [|m sh IH]; intros n.
  - reflexivity.
  - change (compute_strides (n :: m :: sh)) with
      (match compute_strides (m :: sh), m :: sh with
       | s1 :: st, n1 :: _ => w64 (s1 * n1) :: s1 :: st
       | _, _ => [1]
       end).
    rewrite IH. f_equal. rewrite w64_mul_l. cbn [count]. f_equal. ring.
Qed.

Lemma strides_length sh : length (compute_strides sh) = length sh.
Proof. induction sh as [|n sh IH]; [reflexivity|]. rewrite strides_cons. cbn. rewrite IH. reflexivity. Qed.

Lemma strides_size sh : Forall is_size (compute_strides sh).
Proof.
  induction sh as [|n sh IH]; [constructor|]. rewrite strides_cons. constructor; [apply w64_size | assumption].
Qed.

Fixpoint dot (idx st : list Z) : Z :=
  match idx, st with i :: is, s :: ss => i * s + dot is ss | _, _ => 0 end.

Lemma dot_strides sh : forall idx, length idx = length sh -> w64 (dot idx (compute_strides sh)) = w64 (row_major sh idx).
Proof.
  induction sh as [|n sh IH]; intros [|i idx] HL; try discriminate; [reflexivity|].
  rewrite strides_cons. cbn [dot row_major]. injection HL as HL.
  apply w64_add_cong; [apply w64_mul_r | apply IH; assumption].
Qed.

Lemma row_major_range sh : forall idx, in_range idx sh -> 0 <= row_major sh idx < count sh.
Proof.
  induction sh as [|n sh IH]; intros idx H; inversion H; subst; cbn; [lia|].
  specialize (IH _ H4). nia.
Qed.

Lemma in_range_length idx sh : in_range idx sh -> length idx = length sh.
Proof. apply Forall2_length. Qed.

Lemma idx_loop_dot idx sh : in_range idx sh -> forall st acc, length st = length sh -> is_size acc ->
  idx_loop idx sh st acc = Ok (w64 (acc + dot idx st)).
Proof.
  induction 1 as [|i n idx sh Hi H IH]; intros st acc HL Ha.
  - cbn. rewrite Z.add_0_r, w64_id by assumption. reflexivity.
  - destruct st as [|s st]; [discriminate|]. cbn [idx_loop dot].
    replace (n <=? i) with false by (symmetry; apply Z.leb_gt; lia).
    rewrite IH; [|injection HL; auto | apply w64_size].
    f_equal. rewrite w64_add_l. rewrite <- (Z.add_assoc acc), w64_add_cong with (b := acc) (d := i * s + dot idx st); try reflexivity.
    rewrite w64_add_l. reflexivity.
Qed.

Lemma idx_loop_throw idx : Forall is_size idx -> forall sh st acc, length idx = length sh -> length st = length sh ->
  (exists e, idx_loop idx sh st acc = Throw e) <-> ~ in_range idx sh.
Proof.
  induction 1 as [|i idx Hi HI IH]; intros sh st acc H1 H2; destruct sh as [|n sh]; try discriminate; destruct st as [|s st]; try discriminate.
  - cbn. split; [intros [e He]; discriminate|]. intros H. exfalso. apply H. constructor.
  - cbn [idx_loop]. destruct (n <=? i) eqn:E.
    + apply Z.leb_le in E. split; [|eauto]. intros _ H. inversion H; subst. lia.
    + apply Z.leb_gt in E. rewrite IH by (cbn in *; lia). unfold is_size in Hi.
      split; intros H H'; apply H; [inversion H'; assumption | constructor; [lia | assumption]].
Qed.

Section A.
Context {A : Type}.
Implicit Types v : mview A.

Lemma pos_dot v idx : wf_view v -> in_range idx (mshape v) -> mv_pos v idx = Ok (w64 (moffset v + dot idx (mstrides v))).
Proof.
  intros (HL & _ & _ & HO) HR. unfold mv_pos. rewrite (in_range_length _ _ HR), Nat.eqb_refl. cbn [negb].
  apply idx_loop_dot; assumption.
Qed.

(** ** C07, C08 *)

Lemma make_wf (data : list A) shape : Forall is_size shape -> wf_view (mv_make data shape).
Proof.
  intros H. repeat split; cbn; auto using strides_length, strides_size; lia.
Qed.

Lemma make_pos (data : list A) shape : Forall is_size shape -> count shape <= 2 ^ 64 ->
  forall idx, in_range idx shape -> mv_pos (mv_make data shape) idx = Ok (row_major shape idx).
Proof.
  intros HS HC idx HR. rewrite pos_dot; [|apply make_wf; assumption | assumption]. cbn [mv_make moffset mstrides].
  rewrite Z.add_0_l, dot_strides by (apply in_range_length; assumption). rewrite w64_id; [reflexivity|].
  pose proof (row_major_range _ _ HR). unfold is_size. lia.
Qed.

Lemma row_major_inj sh : forall i j, in_range i sh -> in_range j sh -> row_major sh i = row_major sh j -> i = j.
Proof.
  induction sh as [|n sh IH]; intros i j Hi Hj E.
  - inversion Hi; subst; inversion Hj; subst. reflexivity.
  - inversion Hi as [|a ? is ? Ha HI]; subst. inversion Hj as [|b ? js ? Hb HJ]; subst.
    cbn in E. pose proof (row_major_range _ _ HI). pose proof (row_major_range _ _ HJ).
    assert (a = b) by nia. subst. f_equal. apply IH; [assumption..|]. lia.
Qed.

Lemma row_major_surj sh : Forall (fun n => 0 <= n) sh -> forall p, 0 <= p < count sh -> exists idx, in_range idx sh /\ row_major sh idx = p.
Proof.
  induction 1 as [|n sh Hn HS IH]; intros p Hp; cbn in Hp.
  - exists []. split; [constructor | cbn; lia].
  - pose proof (count_nonneg _ HS). assert (HC : 0 < count sh) by nia.
    destruct (IH (p mod count sh)) as (is & HI & HE); [apply Z.mod_pos_bound; assumption|].
    exists (p / count sh :: is). split.
    + constructor; [|assumption]. split; [apply Z.div_pos; lia|]. apply Z.div_lt_upper_bound; lia.
    + cbn. rewrite HE. rewrite (Z.div_mod p (count sh)) at 3 by lia. ring.
Qed.

Lemma make_bijective (data : list A) shape : Forall is_size shape -> count shape <= 2 ^ 64 ->
  count shape = Z.of_nat (length data) ->
  (forall idx, in_range idx shape ->
     mv_pos (mv_make data shape) idx = Ok (row_major shape idx) /\
     0 <= row_major shape idx < Z.of_nat (length data)) /\
  (forall i j p, in_range i shape -> in_range j shape ->
     mv_pos (mv_make data shape) i = Ok p -> mv_pos (mv_make data shape) j = Ok p -> i = j) /\
  (forall p, 0 <= p < Z.of_nat (length data) ->
     exists idx, in_range idx shape /\ mv_pos (mv_make data shape) idx = Ok p).
Proof.
  intros HS HC HL. split; [|split].
  - intros idx HR. split; [apply make_pos; assumption|]. rewrite <- HL. apply row_major_range. assumption.
  - intros i j p Hi Hj Ei Ej. rewrite make_pos in Ei, Ej by assumption.
    apply (row_major_inj shape); congruence.
  - intros p Hp. rewrite <- HL in Hp. destruct (row_major_surj shape (size_nonneg _ HS) p Hp) as (idx & HR & HE).
    exists idx. split; [assumption|]. rewrite make_pos by assumption. congruence.
Qed.

Lemma pos_throws v idx : wf_view v -> Forall is_size idx ->
  (exists e, mv_pos v idx = Throw e) <-> ~ in_range idx (mshape v).
Proof.
  intros (HL & _ & _ & _) HI. unfold mv_pos. destruct (Nat.eqb (length idx) (length (mshape v))) eqn:E; cbn [negb].
  - apply Nat.eqb_eq in E. apply idx_loop_throw; assumption.
  - apply Nat.eqb_neq in E. split; [|eauto]. intros _ H. apply E. apply in_range_length. assumption.
Qed.

Lemma getZ_in {B} (l : list B) p : 0 <= p < Z.of_nat (length l) ->
  exists x, getZ l p = Ok x /\ nth_error l (Z.to_nat p) = Some x.
Proof.
  intros H. unfold getZ, get. replace (p <? 0) with false by (symmetry; apply Z.ltb_ge; lia).
  destruct (nth_error l (Z.to_nat p)) as [x|] eqn:E; [exists x; split; reflexivity|].
  apply nth_error_None in E. lia.
Qed.

Lemma at_checked :
  (forall v idx, wf_view v -> Forall is_size idx ->
     (exists e, mv_at v idx = Throw e) <-> ~ in_range idx (mshape v)) /\
  (forall v idx, contiguous v -> in_range idx (mshape v) ->
     exists x, mv_at v idx = Ok x /\
       nth_error (mdata v) (Z.to_nat (moffset v + row_major (mshape v) idx)) = Some x).
Proof.
  split.
  - intros v idx HW HI. rewrite <- (pos_throws v idx HW HI). unfold mv_at. split; intros [e He].
    + destruct (mv_pos v idx) as [p|e'|]; cbn in He; [|eauto|discriminate].
      unfold getZ in He. destruct (p <? 0); [discriminate|]. unfold get in He. destruct (nth_error _ _); discriminate.
    + exists e. rewrite He. reflexivity.
  - intros v idx (HW & HP & HB & _) HR. unfold mv_at. rewrite (HP _ HR). cbn [bind].
    pose proof (row_major_range _ _ HR). apply getZ_in. destruct HW as (_ & _ & _ & HO). unfold is_size in HO. lia.
Qed.

Lemma make_contiguous (data : list A) shape : Forall is_size shape -> count shape <= Z.of_nat (length data) ->
  Z.of_nat (length data) < 2 ^ 63 -> contiguous (mv_make data shape).
Proof.
  intros HS HC HL. split; [apply make_wf; assumption|]. split; [|split; assumption].
  intros idx HR. cbn. apply make_pos; [assumption | | assumption]. lia.
Qed.

(** ** operator[] *)

Lemma index_agrees v i : wf_view v -> is_size i ->
  ((exists e, mv_index v i = Throw e) <-> forall n sh, mshape v = n :: sh -> n <= i) /\
  (forall v', mv_index v i = Ok v' ->
     wf_view v' /\ mdata v' = mdata v /\ (exists n, mshape v = n :: mshape v' /\ i < n) /\
     forall idx, in_range idx (mshape v') -> mv_pos v' idx = mv_pos v (i :: idx)).
Proof.
  intros HW Hi. assert (HW' := HW). destruct HW as (HL & HS & HT & HO). unfold mv_index.
  destruct (mshape v) as [|n sh] eqn:ES.
  - split; [split; [intros; discriminate | eauto]|]. intros; discriminate.
  - destruct (mstrides v) as [|s st] eqn:ET; [discriminate|]. destruct (n <=? i) eqn:E.
    + apply Z.leb_le in E. split; [|intros; discriminate]. split; [|eauto]. intros _ ? ? [= <- <-]. assumption.
    + apply Z.leb_gt in E. split.
      * split; [intros [e He]; discriminate|]. intros H. specialize (H _ _ eq_refl). lia.
      * intros v' [= <-]. cbn [mshape mdata].
        assert (W : wf_view (MV (mdata v) sh st (w64 (moffset v + w64 (i * s))))).
        { inversion HS; inversion HT; subst. repeat split; cbn; auto; apply w64_size. }
        split; [assumption|]. split; [reflexivity|]. split; [exists n; auto|].
        intros idx HR. rewrite pos_dot by assumption. rewrite pos_dot; [|assumption|].
        -- cbn [moffset mstrides]. rewrite ET. cbn [dot]. f_equal. rewrite w64_add_l, <- Z.add_assoc.
           apply w64_add_cong; [reflexivity|]. apply w64_add_l.
        -- rewrite ES. constructor; [unfold is_size in Hi; lia | assumption].
Qed.

(** ** Slices *)

Lemma as_int_id n : 0 <= n < 2 ^ 31 -> as_int n = n.
Proof.
  intros H. unfold as_int. rewrite Z.mod_small by lia. unfold to_int32.
  replace (n <? 2 ^ 31) with true by (symmetry; apply Z.ltb_lt; lia). reflexivity.
Qed.

Lemma clamp_py x n : 0 <= n -> Z.max 0 (Z.min (if x <? 0 then x + n else x) n) = py_bound x n.
Proof.
  intros H. unfold py_bound.
  destruct (Z.ltb_spec x 0); [destruct (Z.ltb_spec (x + n) 0) | destruct (Z.ltb_spec x 0)];
    try (destruct (Z.ltb_spec n (x + n))); try (destruct (Z.ltb_spec n x)); lia.
Qed.

Lemma py_bound_range x n : 0 <= n -> 0 <= py_bound x n <= n.
Proof. intros H. rewrite <- clamp_py by assumption. lia. Qed.

Lemma pos_len_spec d st : 0 < d -> 0 < st -> 0 <= (d + st - 1) / st /\ forall i, 0 <= i -> (i < (d + st - 1) / st <-> i * st < d).
Proof.
  intros Hd Hs. split; [apply Z.div_pos; lia|]. intros i Hi.
  split; intros H.
  - assert (i + 1 <= (d + st - 1) / st) by lia.
    assert ((i + 1) * st <= d + st - 1); [|nia].
    apply Z.le_trans with (st * ((d + st - 1) / st)); [nia|]. apply Z.mul_div_le. assumption.
  - assert (i + 1 <= (d + st - 1) / st); [|lia]. apply Z.div_le_lower_bound; nia.
Qed.

(** The unified description of one dimension. *)
Lemma slice_dim_range sl n s r : 0 <= n < 2 ^ 31 -> (forall i, sl <> SIdx i) ->
  slice_dim sl n s = Ok r ->
  sl_step sl <> 0 /\
  exists len, r = (Some (len, w64 (s * sl_step sl)), w64 (sl_start sl n * s)) /\ 0 <= len <= n /\
  (0 < sl_step sl -> forall i, 0 <= i -> (i < len <-> sl_start sl n + i * sl_step sl < sl_stop sl n)) /\
  (sl_step sl < 0 -> forall i, 0 <= i -> (i < len <-> sl_stop sl n < sl_start sl n + i * sl_step sl)).
Proof.
  intros Hn HN E.
  assert (E' : (if sl_step sl =? 0 then Throw EInvalidArgument
      else
        len <- (if 0 <? sl_step sl then
                  if sl_start sl n <? sl_stop sl n then
                    t <- int_op (sl_stop sl n - sl_start sl n + sl_step sl) ;; Ok ((t - 1) / sl_step sl)
                  else Ok 0
                else
                  if sl_stop sl n <? sl_start sl n then
                    t <- int_op (sl_start sl n - sl_stop sl n - sl_step sl) ;; m <- int_op (- sl_step sl) ;; Ok ((t - 1) / m)
                  else Ok 0) ;;
        Ok (Some (Z.max len 0, w64 (s * sl_step sl)), w64 (sl_start sl n * s))) = Ok r).
  { rewrite <- E. destruct sl as [|i|a b st]; [|exfalso; eapply HN; reflexivity|]; unfold slice_dim; rewrite as_int_id by assumption.
    - cbn [sl_start sl_stop sl_step]. replace (0 <? 0) with false by reflexivity.
      replace (n <? 0) with false by (symmetry; apply Z.ltb_ge; lia).
      replace (Z.max 0 (Z.min 0 n)) with 0 by lia. replace (Z.max 0 (Z.min n n)) with n by lia. reflexivity.
    - cbn [sl_start sl_stop sl_step]. rewrite !clamp_py by lia. reflexivity. }
  clear E. assert (HB : 0 <= sl_start sl n <= n /\ 0 <= sl_stop sl n <= n).
  { destruct sl; cbn; try lia. split; apply py_bound_range; lia. }
  set (a := sl_start sl n) in *. set (b := sl_stop sl n) in *. set (st := sl_step sl) in *.
  clearbody a b st. destruct (st =? 0) eqn:E0; [discriminate|]. apply Z.eqb_neq in E0. split; [assumption|].
  destruct (Z.ltb_spec 0 st) as [Hs|Hs].
  - destruct (Z.ltb_spec a b) as [Hab|Hab].
    + unfold int_op in E'. destruct (_ && _); [|discriminate]. cbn [bind] in E'. injection E' as <-.
      destruct (pos_len_spec (b - a) st) as [L0 LS]; [lia..|].
      exists ((b - a + st - 1) / st). rewrite Z.max_l by assumption. split; [reflexivity|]. split; [|split].
      * split; [assumption|]. apply Z.le_trans with (b - a); [|lia].
        apply Z.lt_succ_r. apply Z.div_lt_upper_bound; nia.
      * intros _ i Hi. rewrite LS by assumption. lia.
      * lia.
    + cbn [bind] in E'. injection E' as <-. exists 0. split; [reflexivity|]. split; [lia|]. split; [|lia].
      intros _ i Hi. nia.
  - destruct (Z.ltb_spec b a) as [Hab|Hab].
    + unfold int_op in E'. destruct (_ && _) eqn:EI; [|discriminate]. cbn [bind] in E'.
      destruct (_ && _) eqn:EJ in E'; [|discriminate]. cbn [bind] in E'. injection E' as <-.
      destruct (pos_len_spec (a - b) (- st)) as [L0 LS]; [lia..|].
      replace (a - b - st - 1) with (a - b + - st - 1) by ring.
      exists ((a - b + - st - 1) / - st). rewrite Z.max_l by assumption. split; [reflexivity|]. split; [|split].
      * split; [assumption|]. apply Z.le_trans with (a - b); [|lia].
        apply Z.lt_succ_r. apply Z.div_lt_upper_bound; nia.
      * lia.
      * intros _ i Hi. rewrite LS by assumption. lia.
    + cbn [bind] in E'. injection E' as <-. exists 0. split; [reflexivity|]. split; [lia|]. split; [lia|].
      intros _ i Hi. nia.
Qed.

Lemma slice_dim_idx k n s r : 0 <= n < 2 ^ 31 -> slice_dim (SIdx k) n s = Ok r ->
  let i := if k <? 0 then k + n else k in 0 <= i < n /\ r = (None, w64 (i * s)).
Proof.
  intros Hn E. unfold slice_dim in E. rewrite as_int_id in E by assumption. cbn zeta in *.
  destruct (Z.ltb_spec (if k <? 0 then k + n else k) 0); cbn in E; [discriminate|].
  destruct (Z.leb_spec n (if k <? 0 then k + n else k)); cbn in E; [discriminate|].
  injection E as <-. split; [lia | reflexivity].
Qed.

(** The result of the slice loop on safe slices. *)
Lemma slice_loop_spec ss : forall shape strides off sh' st' off',
  int_shape shape -> length strides = length shape ->
  slice_loop ss shape strides off = Ok (sh', st', off') ->
  length st' = length sh' /\ int_shape sh' /\ (Forall is_size strides -> Forall is_size st') /\ (is_size off -> is_size off') /\
  (positive_steps ss -> py_shape ss shape sh') /\
  (start_below ss shape -> forall idx', in_range idx' sh' ->
     in_range (py_index ss shape idx') shape /\
     w64 (off' + dot idx' st') = w64 (off + dot (py_index ss shape idx') strides)).
Proof.
  induction ss as [|sl ss IH]; intros shape strides off sh' st' off' HI HL E.
  - cbn in E. injection E as <- <- <-.
    split; [assumption|]. split; [assumption|]. split; [auto|]. split; [auto|].
    split; [intros _; constructor|]. intros _ idx' HR. cbn [py_index]. auto.
  - destruct shape as [|n shape]; [discriminate|]. destruct strides as [|s strides]; [discriminate|].
    cbn [slice_loop] in E. inversion HI as [|? ? Hn HI']; subst. injection HL as HL.
    destruct (slice_dim sl n s) as [[dim d]| |] eqn:ED; [|discriminate..]. cbn [bind] in E.
    destruct (slice_loop ss shape strides (w64 (off + d))) as [[[sh1 st1] off1]| |] eqn:ER; [|discriminate..]. cbn [bind] in E.
    destruct (IH _ _ _ _ _ _ HI' HL ER) as (IL & IS & IT & IO & IP & IX).
    assert (Hcase : (exists k, sl = SIdx k) \/ (forall i, sl <> SIdx i)).
    { destruct sl; [right; discriminate | left; eauto | right; discriminate]. }
    destruct Hcase as [[k ->] | HN].
    + apply slice_dim_idx in ED; [|assumption]. cbn zeta in ED. destruct ED as [Hk [= -> ->]]. injection E as <- <- <-.
      split; [assumption|]. split; [assumption|]. split; [|split; [|split]].
      * intros F. inversion F; auto.
      * intros _. apply IO, w64_size.
      * intros F. inversion F; subst. constructor. auto.
      * intros SB idx' HR. inversion SB; subst. destruct (IX H4 idx' HR) as [R1 R2]. cbn [py_index].
        split; [constructor; assumption|]. cbn [dot]. rewrite R2.
        rewrite !w64_add_l. rewrite <- Z.add_assoc. apply w64_add_cong; [reflexivity|]. rewrite w64_add_l. reflexivity.
    + destruct (slice_dim_range _ _ _ _ Hn HN ED) as (H0 & len & [= -> ->] & Hlen & HP & HM). injection E as <- <- <-.
      split; [cbn; rewrite IL; reflexivity|]. split; [constructor; [lia | assumption]|]. split; [|split; [|split]].
      * intros F. constructor; [apply w64_size|]. inversion F; auto.
      * intros _. apply IO, w64_size.
      * intros F. inversion F as [|? ? F1 F2]; subst. specialize (IP F2). destruct sl as [|?|a b st]; [| |].
        -- cbn in HP. replace len with n; [constructor; assumption|].
           specialize (HP F1). destruct (Z.lt_trichotomy len n) as [?|[?|?]]; [|lia|]; exfalso.
           ++ specialize (HP len). lia.
           ++ lia.
        -- exfalso. eapply HN. reflexivity.
        -- constructor; [|assumption]. split; [lia|]. intros i Hi. apply HP; assumption.
      * intros SB idx' HR. inversion HR as [|i ? is ? Hi HRs]; subst. inversion SB as [|? ? ? ? HS SB']; subst.
        destruct (IX SB' is HRs) as [R1 R2].
        assert (EX : py_index (sl :: ss) (n :: shape) (i :: is) = (sl_start sl n + i * sl_step sl) :: py_index ss shape is).
        { destruct sl; [reflexivity | exfalso; eapply HN; reflexivity | reflexivity]. }
        rewrite EX. split.
        -- constructor; [|assumption].
           assert (HB : 0 <= sl_start sl n <= n /\ 0 <= sl_stop sl n <= n).
           { destruct sl; cbn; try lia. split; apply py_bound_range; lia. }
           destruct HS as [HS|[HS HSn]].
           ++ assert (X := proj1 (HP HS i ltac:(lia)) ltac:(lia)). nia.
           ++ assert (X := proj1 (HM HS i ltac:(lia)) ltac:(lia)). nia.
        -- cbn [dot].
           replace (off1 + (i * w64 (s * sl_step sl) + dot is st1)) with ((off1 + dot is st1) + i * w64 (s * sl_step sl)) by ring.
           replace (off + ((sl_start sl n + i * sl_step sl) * s + dot (py_index ss shape is) strides))
             with ((off + sl_start sl n * s + dot (py_index ss shape is) strides) + i * (s * sl_step sl)) by ring.
           apply w64_add_cong; [|apply w64_mul_r]. rewrite R2.
           rewrite <- (w64_add_l (w64 _)), w64_w64, w64_add_l. apply w64_add_cong; [|reflexivity].
           apply w64_add_r.
Qed.

Definition int_view v : Prop := wf_view v /\ int_shape (mshape v).

Lemma int_shape_size sh : int_shape sh -> Forall is_size sh.
Proof. apply Forall_impl. intros n H. unfold is_size. lia. Qed.

Lemma slice_spec v ss v' : wf_view v -> int_shape (mshape v) -> mv_slice v ss = Ok v' ->
  wf_view v' /\ int_shape (mshape v') /\ mdata v' = mdata v /\
  (positive_steps ss -> py_shape ss (mshape v) (mshape v')) /\
  (start_below ss (mshape v) -> forall idx, in_range idx (mshape v') ->
     in_range (py_index ss (mshape v) idx) (mshape v) /\
     mv_pos v' idx = mv_pos v (py_index ss (mshape v) idx)).
Proof.
  intros HW HI E. unfold mv_slice in E.
  destruct (slice_loop ss (mshape v) (mstrides v) (moffset v)) as [[[sh st] off]| |] eqn:ES; [|discriminate..].
  cbn in E. injection E as <-. assert (HW' := HW). destruct HW' as (HL & HS & HT & HO).
  destruct (slice_loop_spec _ _ _ _ _ _ _ HI HL ES) as (A1 & A2 & A3 & A4 & A5 & A6).
  assert (W : wf_view (MV (mdata v) sh st off)) by (repeat split; cbn; auto using int_shape_size; apply A4; assumption).
  split; [assumption|]. split; [assumption|]. split; [reflexivity|]. split; [assumption|].
  intros SB idx HR. destruct (A6 SB idx HR) as [R1 R2]. split; [assumption|].
  rewrite !pos_dot by assumption. cbn. rewrite R2. reflexivity.
Qed.

Lemma positive_start_below ss shape : positive_steps ss -> (length ss <= length shape)%nat -> start_below ss shape.
Proof.
  revert shape. induction ss as [|sl ss IH]; intros shape HP HL; [constructor|].
  destruct shape as [|n shape]; [cbn in HL; lia|]. inversion HP; subst. constructor; [auto|].
  apply IH; [assumption | cbn in HL; lia].
Qed.

Lemma slice_loop_length ss : forall shape strides off r, slice_loop ss shape strides off = Ok r -> (length ss <= length shape)%nat.
Proof.
  induction ss as [|sl ss IH]; intros shape strides off r E; [cbn; lia|].
  destruct shape as [|n shape]; [discriminate|]. destruct strides as [|s strides]; [discriminate|]. cbn [slice_loop] in E.
  destruct (slice_dim sl n s) as [[dim d]| |]; [|discriminate..]. cbn [bind] in E.
  destruct (slice_loop ss shape strides _) as [[[? ?] ?]| |] eqn:ER; [|discriminate..]. apply IH in ER. cbn. lia.
Qed.

Lemma slice_positive v ss v' : wf_view v -> int_shape (mshape v) -> positive_steps ss -> mv_slice v ss = Ok v' ->
  wf_view v' /\ int_shape (mshape v') /\ mdata v' = mdata v /\
  py_shape ss (mshape v) (mshape v') /\
  forall idx, in_range idx (mshape v') ->
     in_range (py_index ss (mshape v) idx) (mshape v) /\
     mv_pos v' idx = mv_pos v (py_index ss (mshape v) idx).
Proof.
  intros HW HI HP E. destruct (slice_spec _ _ _ HW HI E) as (A1 & A2 & A3 & A4 & A5).
  repeat (split; [auto; fail|]). apply A5. apply positive_start_below; [assumption|].
  unfold mv_slice in E. destruct (slice_loop _ _ _ _) as [r| |] eqn:ES; [|discriminate..].
  eapply slice_loop_length. eassumption.
Qed.

(** ** C10 *)

Definition op_ok (o : mvop) : Prop :=
  match o with OSlice ss => positive_steps ss | OIndex i => is_size i end.

Lemma run_in_buffer : forall ops v v', wf_view v -> int_shape (mshape v) -> Forall op_ok ops ->
  mv_run v ops = Ok v' ->
  mdata v' = mdata v /\
  forall idx, in_range idx (mshape v') -> exists idx0, in_range idx0 (mshape v) /\ mv_pos v' idx = mv_pos v idx0.
Proof.
  induction ops as [|o ops IH]; intros v v' HW HI HO E.
  - injection E as <-. split; [reflexivity|]. eauto.
  - cbn [mv_run] in E. destruct (mv_step v o) as [v1| |] eqn:E1; [|discriminate..]. cbn [bind] in E.
    inversion HO as [|? ? Ho HO']; subst.
    assert (X : wf_view v1 /\ int_shape (mshape v1) /\ mdata v1 = mdata v /\
      forall idx, in_range idx (mshape v1) -> exists idx0, in_range idx0 (mshape v) /\ mv_pos v1 idx = mv_pos v idx0).
    { destruct o as [ss|i]; cbn in E1, Ho.
      - destruct (slice_positive _ _ _ HW HI Ho E1) as (B1 & B2 & B3 & B4 & B5). repeat (split; [assumption|]).
        intros idx HR. destruct (B5 idx HR). eauto.
      - destruct (index_agrees v i HW Ho) as [_ HX]. destruct (HX _ E1) as (B1 & B2 & (n & B3 & B3') & B4).
        split; [assumption|]. split; [rewrite B3 in HI; inversion HI; assumption|]. split; [assumption|].
        intros idx HR. exists (i :: idx). split; [|apply B4; assumption]. rewrite B3. constructor; [|assumption].
        unfold is_size in Ho. lia. }
    destruct X as (X1 & X2 & X3 & X4). destruct (IH _ _ X1 X2 HO' E) as [Y1 Y2].
    split; [congruence|]. intros idx HR. destruct (Y2 idx HR) as (i1 & R1 & P1). destruct (X4 i1 R1) as (i0 & R0 & P0).
    exists i0. split; [assumption|]. congruence.
Qed.

Lemma chains_in_buffer (data : list A) shape ops v' :
  int_shape shape -> count shape <= Z.of_nat (length data) -> Z.of_nat (length data) < 2 ^ 63 ->
  Forall (fun o => match o with OSlice ss => positive_steps ss | OIndex i => is_size i end) ops ->
  mv_run (mv_make data shape) ops = Ok v' ->
  forall idx, in_range idx (mshape v') ->
  exists p x, mv_pos v' idx = Ok p /\ 0 <= p < Z.of_nat (length data) /\
              mv_at v' idx = Ok x /\ nth_error data (Z.to_nat p) = Some x.
Proof.
  intros HI HC HL HO E idx HR.
  assert (HS := int_shape_size _ HI).
  destruct (run_in_buffer ops _ _ (make_wf data shape HS) HI HO E) as [HD HX].
  destruct (HX idx HR) as (i0 & R0 & P0). cbn in R0.
  rewrite (make_pos data shape) in P0; [|assumption|lia|assumption].
  pose proof (row_major_range _ _ R0). exists (row_major shape i0).
  destruct (getZ_in data (row_major shape i0)) as (x & G1 & G2); [lia|].
  exists x. split; [assumption|]. split; [lia|]. split; [|assumption].
  unfold mv_at. rewrite P0, HD. exact G1.
Qed.

(** ** C12 *)

Lemma slice_dim_throw sl n s : 0 <= n <= 2 ^ 30 -> - 2 ^ 30 < sl_step sl < 2 ^ 30 ->
  ((exists e, slice_dim sl n s = Throw e) /\ ((exists i, sl = SIdx i /\ (i < - n \/ n <= i)) \/ exists a b, sl = SRange a b 0)) \/
  ((exists r, slice_dim sl n s = Ok r) /\ (forall i, sl = SIdx i -> ~ (i < - n \/ n <= i)) /\ (forall a b, sl <> SRange a b 0)).
Proof.
  intros Hn Hs. destruct sl as [|i|a b st].
  - right. split; [|split; discriminate]. unfold slice_dim. rewrite as_int_id by lia. cbn.
    replace (n <? 0) with false by (symmetry; apply Z.ltb_ge; lia).
    destruct (Z.max 0 (Z.min 0 n) <? _); [|eexists; reflexivity].
    unfold int_op. replace ((_ <=? _) && (_ <? _)) with true; [eexists; reflexivity|].
    symmetry. apply andb_true_iff. rewrite Z.leb_le, Z.ltb_lt. lia.
  - unfold slice_dim. rewrite as_int_id by lia.
    destruct (Z.ltb_spec (if i <? 0 then i + n else i) 0) as [H|H]; cbn [orb].
    + left. split; [eauto|]. left. exists i. split; [reflexivity|]. destruct (Z.ltb_spec i 0); lia.
    + destruct (Z.leb_spec n (if i <? 0 then i + n else i)) as [H'|H'].
      * left. split; [eauto|]. left. exists i. split; [reflexivity|]. destruct (Z.ltb_spec i 0); lia.
      * right. split; [eauto|]. split; [|discriminate]. intros ? [= <-]. destruct (Z.ltb_spec i 0); lia.
  - unfold slice_dim. rewrite as_int_id by lia. rewrite !clamp_py by lia. cbn in Hs.
    pose proof (py_bound_range a n). pose proof (py_bound_range b n).
    destruct (Z.eqb_spec st 0) as [->|Hst].
    + left. split; [eauto|]. right. eauto.
    + right. split; [|split; [discriminate | congruence]].
      destruct (0 <? st).
      * destruct (py_bound a n <? py_bound b n); [|eexists; reflexivity].
        unfold int_op. replace ((- 2 ^ 31 <=? py_bound b n - py_bound a n + st) && (py_bound b n - py_bound a n + st <? 2 ^ 31)) with true; [eexists; reflexivity|].
        symmetry. apply andb_true_iff. rewrite Z.leb_le, Z.ltb_lt. lia.
      * destruct (py_bound b n <? py_bound a n); [|eexists; reflexivity].
        unfold int_op. replace ((- 2 ^ 31 <=? py_bound a n - py_bound b n - st) && (py_bound a n - py_bound b n - st <? 2 ^ 31)) with true.
        2: { symmetry. apply andb_true_iff. rewrite Z.leb_le, Z.ltb_lt. lia. }
        replace ((- 2 ^ 31 <=? - st) && (- st <? 2 ^ 31)) with true.
        2: { symmetry. apply andb_true_iff. rewrite Z.leb_le, Z.ltb_lt. lia. }
        eexists; reflexivity.
Qed.

Lemma slice_loop_throw ss : small_slices ss -> forall shape strides off, small_shape shape -> length strides = length shape ->
  ((exists e, slice_loop ss shape strides off = Throw e) /\ bad_slices ss shape) \/
  ((exists r, slice_loop ss shape strides off = Ok r) /\ ~ bad_slices ss shape).
Proof.
  induction 1 as [|sl ss Hsl HSS IH]; intros shape strides off HI HL.
  - right. split; [eexists; reflexivity|]. intros H; inversion H.
  - destruct shape as [|n shape].
    + left. split; [eexists; reflexivity | constructor].
    + destruct strides as [|s strides]; [discriminate|]. inversion HI as [|? ? Hn HI']; subst. injection HL as HL.
      cbn [slice_loop]. destruct (slice_dim_throw sl n s Hn Hsl) as [[[e He] HB]|[[[dim d] Hr] [HB1 HB2]]].
      * left. rewrite He. split; [eexists; reflexivity|].
        destruct HB as [(i & -> & HB)|(a & b & ->)]; constructor; assumption.
      * rewrite Hr. cbn [bind].
        destruct (IH shape strides (w64 (off + d)) HI' HL) as [[[e He] HB]|[[[[sh st] off'] Hx] HB]].
        -- left. rewrite He. split; [eexists; reflexivity|]. apply bs_later. assumption.
        -- right. rewrite Hx. cbn [bind]. split; [destruct dim as [[? ?]|]; eexists; reflexivity|].
           intros H. inversion H; subst; [eapply HB1; eauto | eapply HB2; reflexivity | contradiction].
Qed.

Lemma slice_throws v ss : wf_view v -> small_shape (mshape v) -> small_slices ss ->
  (bad_slices ss (mshape v) -> exists e, mv_slice v ss = Throw e) /\
  (~ bad_slices ss (mshape v) -> exists v', mv_slice v ss = Ok v').
Proof.
  intros (HL & _) HS HSS. unfold mv_slice.
  destruct (slice_loop_throw ss HSS (mshape v) (mstrides v) (moffset v) HS HL) as [[[e He] HB]|[[[[sh st] off'] Hx] HB]].
  - rewrite He. split; [intros _; eexists; reflexivity | contradiction].
  - rewrite Hx. split; [contradiction|]. intros _. eexists; reflexivity.
Qed.

(** ** Reshape *)

Lemma total_fold sh : forall acc, is_size acc -> fold_left (fun acc n => w64 (acc * n)) sh acc = w64 (acc * count sh).
Proof.
  induction sh as [|n sh IH]; intros acc Ha; cbn.
  - rewrite Z.mul_1_r, w64_id by assumption. reflexivity.
  - rewrite IH by apply w64_size. rewrite w64_mul_l. f_equal. ring.
Qed.

Lemma total_count sh : sh <> [] -> compute_total_size sh = w64 (count sh).
Proof.
  intros H. destruct sh; [congruence|]. unfold compute_total_size. rewrite total_fold by (split; [lia | reflexivity]).
  rewrite Z.mul_1_l. reflexivity.
Qed.

Lemma reshape_contiguous v new_shape : contiguous v -> mshape v <> [] -> new_shape <> [] ->
  Forall is_size new_shape -> count new_shape < 2 ^ 64 ->
  (count new_shape <> count (mshape v) -> exists e, mv_reshape v new_shape = Throw e) /\
  (count new_shape = count (mshape v) -> exists v',
     mv_reshape v new_shape = Ok v' /\ contiguous v' /\ mshape v' = new_shape /\ mdata v' = mdata v /\
     forall idx idx', in_range idx (mshape v) -> in_range idx' new_shape ->
       row_major (mshape v) idx = row_major new_shape idx' -> mv_pos v idx = mv_pos v' idx').
Proof.
  intros HC HN HN' HS HB. assert (HC' := HC). destruct HC' as ((HL & HSv & HT & HO) & HP & HF & HD).
  pose proof (count_nonneg _ (size_nonneg _ HS)). pose proof (count_nonneg _ (size_nonneg _ HSv)).
  unfold mv_reshape. rewrite !total_count by assumption. unfold is_size in HO.
  rewrite !w64_id by (unfold is_size; lia).
  split; intros HE.
  - replace (_ =? _) with false by (symmetry; apply Z.eqb_neq; assumption). eauto.
  - replace (_ =? _) with true by (symmetry; apply Z.eqb_eq; assumption). eexists. split; [reflexivity|].
    assert (W : wf_view (MV (mdata v) new_shape (compute_strides new_shape) (moffset v))).
    { repeat split; cbn; auto using strides_length, strides_size; lia. }
    assert (HP' : forall idx, in_range idx new_shape ->
      mv_pos (MV (mdata v) new_shape (compute_strides new_shape) (moffset v)) idx = Ok (moffset v + row_major new_shape idx)).
    { intros idx HR. rewrite pos_dot by assumption. cbn. pose proof (row_major_range _ _ HR).
      rewrite <- w64_add_r, dot_strides, w64_add_r by (apply in_range_length; assumption).
      rewrite w64_id by (unfold is_size; lia). reflexivity. }
    split; [|split; [reflexivity|split; [reflexivity|]]].
    + split; [assumption|]. split; [assumption|]. cbn. split; [lia | assumption].
    + intros idx idx' HR HR' E. rewrite HP, HP' by assumption. rewrite E. reflexivity.
Qed.

(** ** size() *)

Lemma size_loop_one fuel : forall shape i r, size_loop fuel shape i = Some r -> r = 1.
Proof.
  induction fuel as [|f IH]; intros shape i r E; cbn in E; destruct (_ <=? _); try congruence.
  destruct (nth_error _ _); [|discriminate]. eapply IH. eassumption.
Qed.

Lemma size_loop_hangs fuel : forall n0, size_loop fuel [n0; 0] 1 = None.
Proof.
  induction fuel as [|f IH]; intros n0; [reflexivity|]. cbn [size_loop length].
  change (Z.of_nat 2 <=? 1) with false. cbn iota. change (nth_error [n0; 0] (Z.to_nat 1)) with (Some 0).
  cbn iota. change (w64 (w64 (1 * 0) + 1)) with 1. apply IH.
Qed.

Lemma size_hangs fuel (v : mview A) n0 : mshape v = [n0; 0] -> mv_size fuel v = None.
Proof.
  intros E. unfold mv_size. rewrite E. destruct fuel as [|f]; [reflexivity|]. cbn [size_loop length].
  change (Z.of_nat 2 <=? 0) with false. cbn iota. change (nth_error [n0; 0] (Z.to_nat 0)) with (Some n0).
  cbn iota. rewrite Z.mul_0_l. change (w64 (w64 0 + 1)) with 1. apply size_loop_hangs.
Qed.

(** ** to_string on one-dimensional views *)

Lemma preview_loop_1d v n s : mshape v = [n] -> mstrides v = [s] -> wf_view v ->
  (forall i, 0 <= i < n -> exists x, mv_at v [i] = Ok x) ->
  forall c i, 0 <= i -> i + Z.of_nat c <= n ->
  exists xs, preview_loop c i v = Ok xs /\ length xs = c /\
    forall k, (k < c)%nat -> exists x, nth_error xs k = Some x /\ mv_at v [i + Z.of_nat k] = Ok x.
Proof.
  intros ES ET HW HA. induction c as [|c IH]; intros i Hi HC.
  - exists []. repeat split; auto. intros k Hk. lia.
  - destruct (IH (i + 1)) as (xs & E1 & E2 & E3); [lia..|].
    destruct (HA i) as [x Hx]; [lia|].
    assert (X : getZ (mdata v) (w64 (moffset v + w64 (i * s))) = Ok x).
    { unfold mv_at in Hx. rewrite pos_dot in Hx; [|assumption | rewrite ES; constructor; [lia | constructor]].
      cbn [bind] in Hx. rewrite ET in Hx. cbn [dot] in Hx. rewrite Z.add_0_r in Hx. rewrite w64_add_r. exact Hx. }
    exists (x :: xs). cbn [preview_loop]. rewrite ET. cbn [get nth_error of_option bind].
    rewrite X. cbn [bind]. rewrite E1. cbn [bind]. split; [reflexivity|]. split; [cbn; rewrite E2; reflexivity|].
    intros [|k] Hk.
    + exists x. split; [reflexivity|]. rewrite Z.add_0_r. assumption.
    + destruct (E3 k) as (y & Y1 & Y2); [lia|]. exists y. split; [assumption|].
      replace (i + Z.of_nat (S k)) with (i + 1 + Z.of_nat k) by lia. assumption.
Qed.

Lemma preview_1d v n limit : mshape v = [n] -> wf_view v -> 0 <= limit ->
  (forall i, 0 <= i < n -> exists x, mv_at v [i] = Ok x) ->
  exists xs, mv_preview limit v = Ok xs /\ Z.of_nat (length xs) = Z.min limit n /\
    forall k, (k < length xs)%nat -> exists x, nth_error xs k = Some x /\ mv_at v [Z.of_nat k] = Ok x.
Proof.
  intros ES HW Hl HA. assert (HW' := HW). destruct HW' as (HL & HS & _ & _). rewrite ES in HL, HS.
  destruct (mstrides v) as [|s [|? ?]] eqn:ET; try discriminate. inversion HS as [|? ? Hn _]; subst.
  assert (HT : compute_total_size (mshape v) = n).
  { rewrite ES. rewrite total_count by discriminate. cbn. rewrite Z.mul_1_r. apply w64_id. assumption. }
  unfold mv_preview. rewrite HT.
  destruct (preview_loop_1d v n s ES ET HW HA (Z.to_nat (Z.min limit n)) 0) as (xs & E1 & E2 & E3); [lia | unfold is_size in Hn; lia|].
  exists xs. split; [assumption|]. split; [rewrite E2; unfold is_size in Hn; lia|].
  intros k Hk. rewrite E2 in Hk. apply (E3 k Hk).
Qed.
End A.
