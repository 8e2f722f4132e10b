From Coq Require Import List ZArith Lia Bool.
From Verif Require Import Base BaseFacts ModelSerialization SpecSerialization.
Import ListNotations.
Open Scope Z_scope.

Lemma le_bytes_length n z : length (le_bytes n z) = n.
Proof. revert z. induction n as [|n IH]; intros z; cbn; [reflexivity | rewrite IH; reflexivity]. Qed.

Lemma le_value_bytes n z : le_value (le_bytes n z) = z mod 256 ^ Z.of_nat n.
Proof.
  revert z. induction n as [|n IH]; intros z; cbn [le_bytes le_value].
  - cbn. rewrite Z.mod_1_r. reflexivity.
  - rewrite IH. rewrite Nat2Z.inj_succ, Z.pow_succ_r by lia.
    rewrite Z.rem_mul_r by (try lia; apply Z.pow_pos_nonneg; lia). reflexivity.
Qed.

Lemma read_bytes_app n a b : length a = n -> read_bytes n (a ++ b) = Ok (a, b).
Proof.
  intros <-. unfold read_bytes. rewrite app_length.
  replace (Nat.leb (length a) (length a + length b)) with true
    by (symmetry; apply Nat.leb_le; lia).
  rewrite firstn_app, skipn_app, firstn_all, skipn_all, Nat.sub_diag. cbn.
  rewrite app_nil_r. reflexivity.
Qed.

Lemma read_bytes_short n data : (length data < n)%nat -> read_bytes n data = UB.
Proof.
  intros H. unfold read_bytes.
  replace (Nat.leb n (length data)) with false by (symmetry; apply Nat.leb_gt; lia).
  reflexivity.
Qed.

(** A reader is exact for a writer on a set of values: it decodes the value,
    leaves the rest, and runs off the end on every proper prefix. *)
Definition exact {A} (P : A -> Prop) (enc : A -> list byte) (dec : list byte -> res (A * list byte)) : Prop :=
  (forall a rest, P a -> dec (enc a ++ rest) = Ok (a, rest)) /\
  (forall a p, P a -> proper_prefix p (enc a) -> dec p = UB).

Lemma proper_prefix_length {A} (p l : list A) : proper_prefix p l -> (length p < length l)%nat.
Proof.
  intros (s & Hs & ->). rewrite app_length. destruct s; [congruence | cbn; lia].
Qed.

(** A proper prefix of a concatenation is a proper prefix of the first part, or
    the first part followed by a proper prefix of the second. *)
Lemma proper_prefix_app {A} (p l1 l2 : list A) :
  proper_prefix p (l1 ++ l2) ->
  proper_prefix p l1 \/ exists q, p = l1 ++ q /\ proper_prefix q l2.
Proof.
  revert p. induction l1 as [|x l1 IH]; intros p (s & Hs & E).
  - right. exists p. split; [reflexivity | exists s; auto].
  - destruct p as [|y p].
    + left. exists (x :: l1). split; [discriminate | reflexivity].
    + cbn in E. injection E as -> E.
      destruct (IH p) as [(t & Ht & ->) | (q & -> & Hq)].
      * exists s; auto.
      * left. exists t. split; [assumption | reflexivity].
      * right. exists q. auto.
Qed.

Definition is_int32 (z : Z) := - 2 ^ 31 <= z < 2 ^ 31.

Lemma to_int32_mod z : is_int32 z -> to_int32 (z mod 2 ^ 32) = z.
Proof.
  unfold is_int32, to_int32. intros H.
  destruct (z <? 0) eqn:E.
  - apply Z.ltb_lt in E.
    replace (z mod 2 ^ 32) with (z + 2 ^ 32).
    + destruct (z + 2 ^ 32 <? 2 ^ 31) eqn:E2; [apply Z.ltb_lt in E2; lia | lia].
    + replace z with (z + 2 ^ 32 + (-1) * 2 ^ 32) at 2 by lia.
      rewrite Z.mod_add by lia. rewrite Z.mod_small; lia.
  - apply Z.ltb_ge in E. rewrite Z.mod_small by lia.
    destruct (z <? 2 ^ 31) eqn:E2; [lia | apply Z.ltb_ge in E2; lia].
Qed.

Lemma exact_int : exact is_int32 serializeInt deserializeInt.
Proof.
  split.
  - intros a rest H. unfold deserializeInt, serializeInt.
    rewrite read_bytes_app by apply le_bytes_length.
    cbn [bind]. rewrite le_value_bytes. change (256 ^ Z.of_nat 4) with (2 ^ 32).
    rewrite to_int32_mod by assumption. reflexivity.
  - intros a p _ Hp. apply proper_prefix_length in Hp.
    unfold serializeInt in Hp. rewrite le_bytes_length in Hp.
    unfold deserializeInt. rewrite read_bytes_short by assumption. reflexivity.
Qed.

Lemma exact_double : exact is_dbl serializeDouble deserializeDouble.
Proof.
  split.
  - intros a rest H. unfold deserializeDouble, serializeDouble.
    rewrite read_bytes_app by apply le_bytes_length.
    cbn [bind]. rewrite le_value_bytes. change (256 ^ Z.of_nat 8) with (2 ^ 64).
    rewrite Z.mod_small by assumption. reflexivity.
  - intros a p _ Hp. apply proper_prefix_length in Hp.
    unfold serializeDouble in Hp. rewrite le_bytes_length in Hp.
    unfold deserializeDouble. rewrite read_bytes_short by assumption. reflexivity.
Qed.

Lemma exact_bool : exact (fun _ => True) serializeBool deserializeBool.
Proof.
  split.
  - intros a rest _. unfold deserializeBool, serializeBool.
    rewrite read_bytes_app by reflexivity. destruct a; reflexivity.
  - intros a p _ Hp. apply proper_prefix_length in Hp. cbn in Hp.
    unfold deserializeBool. rewrite read_bytes_short by assumption. reflexivity.
Qed.

(** Composition of two exact codecs whose second field may depend on the first. *)
Lemma exact_read_n {A} (P : A -> Prop) enc dec (l : list A) :
  exact P enc dec -> Forall P l ->
  (forall rest, read_n dec (length l) (flat_map enc l ++ rest) = Ok (l, rest)) /\
  (forall p, proper_prefix p (flat_map enc l) -> read_n dec (length l) p = UB).
Proof.
  intros [Hrt Htr] HF. induction HF as [|a l Ha HF [IH1 IH2]].
  - split; [reflexivity |].
    intros p (s & Hs & E). cbn in E. destruct p; cbn in E; [congruence | discriminate].
  - split.
    + intros rest. cbn [flat_map length read_n]. rewrite <- app_assoc, Hrt by assumption.
      cbn [bind]. rewrite IH1. reflexivity.
    + intros p Hp. cbn [flat_map] in Hp. cbn [length read_n].
      apply proper_prefix_app in Hp. destruct Hp as [Hp | (q & -> & Hq)].
      * rewrite (Htr a p Ha Hp). reflexivity.
      * rewrite Hrt by assumption. cbn [bind]. rewrite IH2 by assumption. reflexivity.
Qed.

Definition vec_ok {A} (P : A -> Prop) (l : list A) : Prop := Forall P l /\ Z.of_nat (length l) < 2 ^ 31.

Lemma exact_vec {A} (P : A -> Prop) enc dec :
  exact P enc dec ->
  exact (vec_ok P)
    (fun l => serializeInt (Z.of_nat (length l)) ++ flat_map enc l)
    (fun data => '(size, d1) <- deserializeInt data ;; _ <- check_size size ;; read_n dec (Z.to_nat size) d1).
Proof.
  intros HE. destruct exact_int as [Hirt Hitr].
  split.
  - intros l rest [HF HL]. rewrite <- app_assoc, Hirt by (unfold is_int32; lia).
    cbn [bind]. unfold check_size.
    replace (Z.of_nat (length l) <? 0) with false by (symmetry; apply Z.ltb_ge; lia).
    cbn [bind]. rewrite Nat2Z.id.
    apply (exact_read_n P enc dec l HE HF).
  - intros l p [HF HL] Hp. apply proper_prefix_app in Hp.
    destruct Hp as [Hp | (q & -> & Hq)].
    + rewrite (Hitr (Z.of_nat (length l)) p) by (unfold is_int32; auto; lia). reflexivity.
    + rewrite Hirt by (unfold is_int32; lia). cbn [bind]. unfold check_size.
      replace (Z.of_nat (length l) <? 0) with false by (symmetry; apply Z.ltb_ge; lia).
      cbn [bind]. rewrite Nat2Z.id.
      apply (exact_read_n P enc dec l HE HF). assumption.
Qed.

Lemma exact_vec_double : exact (vec_ok is_dbl) serializeVectorDouble deserializeVectorDouble.
Proof. exact (exact_vec _ _ _ exact_double). Qed.

Lemma exact_vec4 : exact is_vec4 serializeVec4 deserializeVec4.
Proof.
  destruct exact_double as [Hrt Htr]. split.
  - intros [x y z w] rest (Hx & Hy & Hz & Hw). cbn in Hx, Hy, Hz, Hw.
    unfold serializeVec4, deserializeVec4. cbn [v4x v4y v4z v4w].
    rewrite <- !app_assoc.
    do 4 (rewrite Hrt by assumption; cbn [bind]). reflexivity.
  - intros [x y z w] p (Hx & Hy & Hz & Hw) Hp. cbn in Hx, Hy, Hz, Hw.
    unfold serializeVec4 in Hp. cbn [v4x v4y v4z v4w] in Hp. unfold deserializeVec4.
    apply proper_prefix_app in Hp. destruct Hp as [Hp | (q & -> & Hp)].
    { rewrite (Htr x) by assumption. reflexivity. }
    rewrite Hrt by assumption; cbn [bind].
    apply proper_prefix_app in Hp. destruct Hp as [Hp | (q2 & -> & Hp)].
    { rewrite (Htr y) by assumption. reflexivity. }
    rewrite Hrt by assumption; cbn [bind].
    apply proper_prefix_app in Hp. destruct Hp as [Hp | (q3 & -> & Hp)].
    { rewrite (Htr z) by assumption. reflexivity. }
    rewrite Hrt by assumption; cbn [bind].
    rewrite (Htr w) by assumption. reflexivity.
Qed.

Lemma exact_vec_vec4 : exact (vec_ok is_vec4) serializeVectorVec4 deserializeVectorVec4.
Proof. exact (exact_vec _ _ _ exact_vec4). Qed.

(** is_periodic never leaves the vector when degree <= number of points. *)
Lemma get_lt {A} (l : list A) i : (i < length l)%nat -> exists a, get l i = Ok a.
Proof.
  intros H. unfold get. destruct (nth_error l i) eqn:E; [eexists; reflexivity|].
  apply nth_error_None in E. lia.
Qed.

Lemma getZ_lt {A} (l : list A) i : 0 <= i < Z.of_nat (length l) -> exists a, getZ l i = Ok a.
Proof.
  intros H. unfold getZ. replace (i <? 0) with false by (symmetry; apply Z.ltb_ge; lia).
  apply get_lt. lia.
Qed.

Lemma is_periodic_from_ok cps degree fuel j :
  Z.of_nat j + Z.of_nat fuel <= degree -> degree <= Z.of_nat (length cps) ->
  exists b, is_periodic_from cps degree j fuel = Ok b.
Proof.
  revert j. induction fuel as [|fuel IH]; intros j H1 H2; cbn [is_periodic_from].
  - eexists; reflexivity.
  - destruct (get_lt cps j) as [a ->]; [lia|]. cbn [bind].
    destruct (getZ_lt cps (Z.of_nat (length cps) - degree + Z.of_nat j)) as [b ->]; [lia|].
    cbn [bind]. destruct (vec4_ne a b); [eexists; reflexivity|].
    apply IH; lia.
Qed.

Lemma is_periodic_ok c : usable c -> exists b, is_periodic c = Ok b.
Proof.
  intros (H & _). unfold is_periodic.
  destruct (Z_le_gt_dec 0 (c_degree c)) as [Hd|Hd].
  - apply is_periodic_from_ok; lia.
  - replace (Z.to_nat (c_degree c)) with 0%nat by lia. eexists; reflexivity.
Qed.

(** Encoding of one curve with the flag byte made explicit. *)
Definition enc_curve (c : curve) : list byte :=
  serializeInt (c_degree c) ++ serializeBool (c_periodic c) ++
  serializeVectorVec4 (c_cps c) ++ serializeVectorDouble (c_knots c).

Definition with_flag (c : curve) (b : bool) : curve :=
  Curve (c_degree c) b (c_cps c) (c_knots c).

Lemma serialize_curve_enc c b :
  is_periodic c = Ok b -> serializeNURBSCurve c = Ok (enc_curve (with_flag c b)).
Proof. intros H. unfold serializeNURBSCurve. rewrite H. reflexivity. Qed.

Lemma usable_int c : usable c -> is_int32 (c_degree c).
Proof. unfold usable, is_int32. lia. Qed.

Lemma exact_curve : exact usable enc_curve deserializeNURBSCurve.
Proof.
  destruct exact_int as [Hirt Hitr], exact_bool as [Hbrt Hbtr],
    exact_vec_vec4 as [Hvrt Hvtr], exact_vec_double as [Hdrt Hdtr].
  split.
  - intros c rest Hc. pose proof (usable_int c Hc) as Hi.
    destruct Hc as (_ & Hcps & Hkn & Hl1 & Hl2 & HF1 & HF2).
    unfold enc_curve, deserializeNURBSCurve. rewrite <- !app_assoc.
    rewrite Hirt by assumption; cbn [bind].
    rewrite Hbrt by exact I; cbn [bind].
    rewrite Hvrt by (split; assumption); cbn [bind].
    rewrite Hdrt by (split; assumption); cbn [bind].
    unfold make_curve. destruct c as [dg pr cps kn]; cbn in *.
    destruct kn; [congruence|]. destruct cps; [congruence|]. reflexivity.
  - intros c p Hc Hp. pose proof (usable_int c Hc) as Hi.
    destruct Hc as (_ & Hcps & Hkn & Hl1 & Hl2 & HF1 & HF2).
    unfold enc_curve in Hp. unfold deserializeNURBSCurve.
    apply proper_prefix_app in Hp. destruct Hp as [Hp | (q & -> & Hp)].
    { rewrite (Hitr (c_degree c)) by assumption. reflexivity. }
    rewrite Hirt by assumption; cbn [bind].
    apply proper_prefix_app in Hp. destruct Hp as [Hp | (q2 & -> & Hp)].
    { rewrite (Hbtr (c_periodic c)) by auto. reflexivity. }
    rewrite Hbrt by exact I; cbn [bind].
    apply proper_prefix_app in Hp. destruct Hp as [Hp | (q3 & -> & Hp)].
    { rewrite (Hvtr (c_cps c)) by (auto; split; assumption). reflexivity. }
    rewrite Hvrt by (split; assumption); cbn [bind].
    rewrite (Hdtr (c_knots c)) by (auto; split; assumption). reflexivity.
Qed.

(** The curve as it is read back: flag replaced by the computed one. *)
Inductive reread : curve -> curve -> Prop :=
| Reread c b : is_periodic c = Ok b -> reread c (with_flag c b).

Lemma usable_with_flag c b : usable c -> usable (with_flag c b).
Proof. exact (fun H => H). Qed.

Lemma serialize_list_enc cs :
  Forall usable cs ->
  exists cs', Forall2 reread cs cs' /\ Forall usable cs' /\
              serializeCurveList cs = Ok (flat_map enc_curve cs').
Proof.
  induction 1 as [|c cs Hc HF (cs' & H1 & H2 & H3)].
  - exists []. repeat split; constructor.
  - destruct (is_periodic_ok c Hc) as [b Hb].
    exists (with_flag c b :: cs'). repeat split.
    + constructor; [constructor; assumption | assumption].
    + constructor; [apply usable_with_flag; assumption | assumption].
    + cbn [serializeCurveList]. rewrite (serialize_curve_enc c b Hb). cbn [bind].
      rewrite H3. reflexivity.
Qed.

Definition enc_curves (cs : list curve) : list byte :=
  serializeInt (Z.of_nat (length cs)) ++ flat_map enc_curve cs.

Lemma serialize_curves_enc cs :
  storable cs ->
  exists cs', Forall2 reread cs cs' /\ storable cs' /\ serializeNURBSCurves cs = Ok (enc_curves cs').
Proof.
  intros [HF HL]. destruct (serialize_list_enc cs HF) as (cs' & H1 & H2 & H3).
  exists cs'. pose proof (Forall2_length _ _ _ H1) as HLen.
  split; [assumption|]. split; [split; [assumption | rewrite <- HLen; assumption] |].
  unfold serializeNURBSCurves. rewrite H3. cbn [bind]. rewrite HLen. reflexivity.
Qed.

Lemma exact_curves_raw :
  exact (vec_ok usable) enc_curves
    (fun data => '(size, d1) <- deserializeInt data ;; _ <- check_size size ;; read_n deserializeNURBSCurve (Z.to_nat size) d1).
Proof. exact (exact_vec _ _ _ exact_curve). Qed.

Lemma deserialize_curves_eq data :
  deserializeNURBSCurves data =
  bind ('(size, d1) <- deserializeInt data ;; _ <- check_size size ;;
        read_n deserializeNURBSCurve (Z.to_nat size) d1) (fun '(cs, _) => Ok cs).
Proof.
  unfold deserializeNURBSCurves.
  destruct (deserializeInt data) as [[s d]| |]; cbn [bind]; try reflexivity.
  destruct (check_size s); reflexivity.
Qed.

Lemma deserialize_enc cs rest : storable cs -> deserializeNURBSCurves (enc_curves cs ++ rest) = Ok cs.
Proof.
  intros H. rewrite deserialize_curves_eq. destruct exact_curves_raw as [Hrt _].
  rewrite Hrt by exact H. reflexivity.
Qed.

Lemma deserialize_enc_prefix cs p : storable cs -> proper_prefix p (enc_curves cs) -> deserializeNURBSCurves p = UB.
Proof.
  intros H Hp. rewrite deserialize_curves_eq. destruct exact_curves_raw as [_ Htr].
  rewrite (Htr cs) by assumption. reflexivity.
Qed.

Lemma reread_same cs cs' : Forall2 reread cs cs' -> Forall2 same_geometry cs cs'.
Proof.
  induction 1 as [|c c' cs cs' Hr HF IH]; constructor; [|assumption].
  destruct Hr. repeat split.
Qed.

(** C01 *)
Lemma curves_round_trip cs trailing :
  storable cs ->
  exists bytes cs', serializeNURBSCurves cs = Ok bytes /\
    deserializeNURBSCurves (bytes ++ trailing) = Ok cs' /\ Forall2 same_geometry cs cs'.
Proof.
  intros H. destruct (serialize_curves_enc cs H) as (cs' & H1 & H2 & H3).
  exists (enc_curves cs'), cs'. split; [assumption|]. split; [|apply reread_same; assumption].
  apply deserialize_enc. assumption.
Qed.

Lemma curves_round_trip_flag cs bytes cs' :
  storable cs -> serializeNURBSCurves cs = Ok bytes -> deserializeNURBSCurves bytes = Ok cs' ->
  Forall2 (fun c c' => is_periodic c = Ok (c_periodic c')) cs cs'.
Proof.
  intros H Hs Hd. destruct (serialize_curves_enc cs H) as (cs2 & H1 & H2 & H3).
  rewrite H3 in Hs. injection Hs as <-.
  rewrite <- (app_nil_r (enc_curves cs2)), deserialize_enc in Hd by assumption. injection Hd as <-.
  clear - H1. induction H1 as [|c c' cs cs' Hr _ IH]; constructor; [|assumption].
  destruct Hr. assumption.
Qed.

(** C02, per-value *)
Lemma curve_record_exact c rest :
  usable c -> exists bytes c', serializeNURBSCurve c = Ok bytes /\
    deserializeNURBSCurve (bytes ++ rest) = Ok (c', rest) /\ same_geometry c c'.
Proof.
  intros H. destruct (is_periodic_ok c H) as [b Hb].
  exists (enc_curve (with_flag c b)), (with_flag c b).
  split; [apply serialize_curve_enc; assumption|]. split; [|repeat split].
  apply exact_curve. apply usable_with_flag. assumption.
Qed.

(** C03 *)
Lemma reread_geom c d : reread c d -> same_geometry c d.
Proof. intros []. repeat split. Qed.

Lemma reread_fun a b d : reread a d -> reread b d -> same_geometry a b.
Proof.
  intros Ha Hb. apply reread_geom in Ha, Hb. unfold same_geometry in *.
  destruct Ha as (-> & -> & ->), Hb as (-> & -> & ->). auto.
Qed.

Lemma curves_injective cs1 cs2 b1 b2 rest :
  storable cs1 -> storable cs2 ->
  serializeNURBSCurves cs1 = Ok b1 -> serializeNURBSCurves cs2 = Ok b2 ->
  b1 = b2 ++ rest -> rest = [] /\ Forall2 same_geometry cs1 cs2.
Proof.
  intros H1 H2 Hs1 Hs2 E.
  destruct (serialize_curves_enc cs1 H1) as (c1 & R1 & W1 & E1).
  destruct (serialize_curves_enc cs2 H2) as (c2 & R2 & W2 & E2).
  rewrite E1 in Hs1; injection Hs1 as <-. rewrite E2 in Hs2; injection Hs2 as <-.
  destruct exact_curves_raw as [Hrt _].
  assert (Hx := Hrt c1 [] W1). rewrite app_nil_r, E in Hx.
  assert (Hy := Hrt c2 rest W2). rewrite Hx in Hy. injection Hy as -> <-.
  split; [reflexivity|].
  clear - R1 R2. revert cs2 R2. induction R1 as [|a a' l l' Ha _ IH]; intros cs2 R2.
  - inversion R2; constructor.
  - inversion R2 as [|b b' m m' Hb HF]; subst. constructor; [|apply IH; assumption].
    exact (reread_fun _ _ _ Ha Hb).
Qed.

(** C04 *)
Lemma torn_file_not_accepted cs bytes p :
  storable cs -> writeNURBSCurvesToFile cs = Ok bytes -> proper_prefix p bytes ->
  readNURBSCurvesFromFile (Some p) = UB.
Proof.
  intros H Hs Hp. destruct (serialize_curves_enc cs H) as (c1 & R1 & W1 & E1).
  unfold writeNURBSCurvesToFile in Hs. rewrite E1 in Hs; injection Hs as <-.
  cbn. apply (deserialize_enc_prefix c1); assumption.
Qed.

Lemma records_self_delimiting :
  (forall i rest, - 2 ^ 31 <= i < 2 ^ 31 -> deserializeInt (serializeInt i ++ rest) = Ok (i, rest)) /\
  (forall d rest, is_dbl d -> deserializeDouble (serializeDouble d ++ rest) = Ok (d, rest)) /\
  (forall b rest, deserializeBool (serializeBool b ++ rest) = Ok (b, rest)) /\
  (forall v rest, is_vec4 v -> deserializeVec4 (serializeVec4 v ++ rest) = Ok (v, rest)) /\
  (forall l rest, Forall is_dbl l -> Z.of_nat (length l) < 2 ^ 31 ->
     deserializeVectorDouble (serializeVectorDouble l ++ rest) = Ok (l, rest)) /\
  (forall l rest, Forall is_vec4 l -> Z.of_nat (length l) < 2 ^ 31 ->
     deserializeVectorVec4 (serializeVectorVec4 l ++ rest) = Ok (l, rest)) /\
  (forall c rest, usable c -> exists bytes c',
     serializeNURBSCurve c = Ok bytes /\
     deserializeNURBSCurve (bytes ++ rest) = Ok (c', rest) /\ same_geometry c c').
Proof.
  split; [intros i rest Hi; apply exact_int; exact Hi|].
  split; [intros d rest Hd; apply exact_double; exact Hd|].
  split; [intros b rest; apply exact_bool; exact I|].
  split; [intros v rest Hv; apply exact_vec4; exact Hv|].
  split; [intros l rest H1 H2; apply exact_vec_double; split; assumption|].
  split; [intros l rest H1 H2; apply exact_vec_vec4; split; assumption|].
  exact curve_record_exact.
Qed.

Lemma torn_file_reported_refuted :
  exists cs bytes torn,
    storable cs /\ writeNURBSCurvesToFile cs = Ok bytes /\ proper_prefix torn bytes /\
    forall e, readNURBSCurvesFromFile (Some torn) <> Throw e.
Proof.
  exists [Curve 1 false [V4b 0 0 0 1; V4b 1 0 0 1] [0; 0; 1; 1]].
  eexists. exists [1; 0; 0; 0; 1].
  split; [|split; [reflexivity|split]].
  - split; [|cbn; lia].
    repeat constructor; cbn; try discriminate; try (intros HX; discriminate HX); lia.
  - match goal with |- proper_prefix _ ?l => exists (skipn 5 l) end. split; [vm_compute; discriminate | vm_compute; reflexivity].
  - intros e. vm_compute. discriminate.
Qed.

Lemma periodic_flag_refuted :
  (exists c bytes c', usable c /\ c_periodic c = true /\
     serializeNURBSCurve c = Ok bytes /\ deserializeNURBSCurve bytes = Ok (c', []) /\
     c_periodic c' = false) /\
  (exists c bytes c', usable c /\ c_periodic c = false /\
     serializeNURBSCurve c = Ok bytes /\ deserializeNURBSCurve bytes = Ok (c', []) /\
     c_periodic c' = true).
Proof.
  split.
  - exists (Curve 1 true [V4b 0 0 0 1; V4b 1 0 0 1] [0; 0; 1; 1]). do 2 eexists.
    split; [|split; [reflexivity|split; [reflexivity|split; [vm_compute; reflexivity|reflexivity]]]].
    repeat constructor; cbn; try discriminate; try (intros HX; discriminate HX); lia.
  - exists (Curve 1 false [V4b 0 0 0 1; V4b 1 0 0 1; V4b 0 0 0 1] [0; 0; 1; 2; 2]). do 2 eexists.
    split; [|split; [reflexivity|split; [reflexivity|split; [vm_compute; reflexivity|reflexivity]]]].
    repeat constructor; cbn; try discriminate; try (intros HX; discriminate HX); lia.
Qed.
