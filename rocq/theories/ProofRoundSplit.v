(** Rounding errors of splitting a curve (C238). *)
From Coq Require Import List ZArith QArith Qcanon Bool Lia Permutation.
From Verif Require Import Base BaseFacts LoopFacts ModelVec ModelAabb ModelNurbs SpecAabb SpecNurbs SpecCurve ModelRound ModelRoundInsert ModelRoundSplit SpecRound SpecRoundInsert SpecRoundSplit.
From Verif Require Import ProofAabb ProofBspline ProofNurbs ProofCurve ProofInsertion ProofInsertCurve ProofInsertKnot ProofSplit ProofNurbsTop.
From Verif Require Import ProofRound ProofRoundBlend ProofRoundInsert ProofRoundDouble ProofRoundAll ProofDerBasis ProofRoundInsertTop.
Import ListNotations.
Open Scope Qc_scope.

Section Make.
Variables (fl : nat -> Qc -> option Qc).

(** a quotient that is delivered is the rounding of the quotient *)
Lemma fdiv_ok x w : w <> 0 -> match fdiv fl x w with Ok z => fl 0%nat (x / w) = Some z | Throw e => e = ERuntime | UB => False end.
Proof.
  intros NZ. unfold fdiv, qdiv. destruct (Qceqb_spec w 0) as [E|_]; [contradiction|]. cbn [bind]. unfold rnd. destruct (fl 0%nat (x / w)); reflexivity.
Qed.
Definition rounded_point (q : vec4) (v : vec3) : Prop :=
  fl 0%nat (wx q / ww q) = Some (vx v) /\ fl 0%nat (wy q / ww q) = Some (vy v) /\ fl 0%nat (wz q / ww q) = Some (vz v).
Lemma fto_vec3_ok q : ww q <> 0 -> match fto_vec3 fl q with Ok v => rounded_point q v | Throw e => e = ERuntime | UB => False end.
Proof.
  intros NZ. unfold fto_vec3. pose proof (fdiv_ok (wx q) (ww q) NZ) as X. destruct (fdiv fl (wx q) (ww q)) as [x|e|]; [|exact X|exact X]. cbn [bind].
  pose proof (fdiv_ok (wy q) (ww q) NZ) as Y. destruct (fdiv fl (wy q) (ww q)) as [y|e|]; [|exact Y|exact Y]. cbn [bind].
  pose proof (fdiv_ok (wz q) (ww q) NZ) as Z. destruct (fdiv fl (wz q) (ww q)) as [z|e|]; [|exact Z|exact Z]. cbn [bind]. split; [exact X|split; [exact Y|exact Z]].
Qed.
Lemma mapM_fto l : positive_weights l ->
  match mapM (fto_vec3 fl) l with Ok pts => forall q, In q l -> exists v, In v pts /\ rounded_point q v | Throw e => e = ERuntime | UB => False end.
Proof.
  induction l as [|a l IH]; intros H; cbn [mapM]; [intros q []|].
  assert (ww a <> 0) as NZ by (intros E; specialize (H a (or_introl eq_refl)); rewrite E in H; discriminate H).
  pose proof (fto_vec3_ok a NZ) as A. destruct (fto_vec3 fl a) as [v|e|]; [|exact A|exact A]. cbn [bind].
  specialize (IH (fun q Hq => H q (or_intror Hq))). destruct (mapM (fto_vec3 fl) l) as [pts|e|]; [|exact IH|exact IH]. cbn [bind].
  intros q [<-|Hq]; [exists v; split; [left; reflexivity|exact A]|]. destruct (IH q Hq) as (w & W1 & W2). exists w. split; [right; exact W1|exact W2].
Qed.
Lemma fmake_ok cps p kv per : positive_weights cps -> cps <> [] -> sorted kv -> kv <> [] ->
  match fmake_knots fl cps p kv per with
  | Ok c => nc_cps c = cps /\ nc_degree c = p /\ nc_knots c = kv /\ nc_periodic c = per /\ nc_interval c = (knot kv 0, knot kv (length kv - 1)) /\
      forall q, In q cps -> exists v, rounded_point q v /\ inside (nc_aabb c) v
  | Throw e => e = ERuntime
  | UB => False
  end.
Proof.
  intros HW NE HS NK. unfold fmake_knots. rewrite update_interval_sorted by assumption. cbn [bind]. unfold frebuildAABB.
  cbn [nc_set_interval nc_cps nc_knots]. destruct cps as [|a P]; [contradiction|].
  assert (ww a <> 0) as NZ by (intros E; specialize (HW a (or_introl eq_refl)); rewrite E in HW; discriminate HW).
  pose proof (fto_vec3_ok a NZ) as A. destruct (fto_vec3 fl a) as [v|e|]; [|exact A|exact A]. cbn [bind].
  pose proof (mapM_fto (a :: P) HW) as M. destruct (mapM (fto_vec3 fl) (a :: P)) as [pts|e|]; [|exact M|exact M]. cbn [bind].
  cbn [nc_set_aabb nc_cps nc_degree nc_knots nc_periodic nc_interval nc_aabb].
  split; [reflexivity|]. split; [reflexivity|]. split; [reflexivity|]. split; [reflexivity|]. split; [reflexivity|].
  intros q Hq. destruct (M q Hq) as (w & W1 & W2). exists w. split; [exact W2|]. intros ax. apply (fold_expand_spec pts (Box v v) ax). exact W1.
Qed.
End Make.

(** ** the coordinates a box is built from *)
Lemma box_coord fl x y w z B : rounds (p2 (-53)) fl -> 0 <= B -> bd (w - 1) (p2 (-46)) -> bd x B -> bd (y - x) (p2 (-46) * B) -> fl 0%nat (y / w) = Some z ->
  bd (x - z) (p2 (-44) * B).
Proof.
  intros (_ & _ & R) B0 HW HX HY F. apply R in F. set (e := p2 (-46)) in *. assert (0 < e) as E0 by reflexivity. assert (e + e + e <= 1) as E1 by discriminate.
  assert (1 - e <= w) as W1 by (destruct HW; qc_lra). assert (0 < w) as WP by qc_lra. assert (w <> 0) as NZ by (intros Q; rewrite Q in WP; discriminate WP).
  assert (w * / w = 1) as I1 by (apply Qcmult_inv_r; exact NZ). pose proof (lt_le _ _ (Qcinv_pos _ WP)) as IP.
  assert (/ w <= 1 + e + e) as IW.
  { assert (0 <= (w - (1 - e)) * / w) as A by (apply mul_nonneg; qc_lra). assert (0 <= / w * (w - (1 - e)) * (1 + e + e)) as A' by (apply mul_nonneg; [apply mul_nonneg|]; qc_lra).
    assert (0 <= e * (1 - e - e) * / w) as A2 by (apply mul_nonneg; [apply mul_nonneg|]; qc_lra).
    replace (/ w * (w - (1 - e)) * (1 + e + e)) with ((w * / w) * (1 + e + e) - / w - e * (1 - e - e) * / w) in A' by ring. rewrite I1 in A'. qc_lra. }
  set (g := (e + e) * (1 + e + e)).
  assert (bd (y / w - x) (g * B)) as Q1.
  { replace (y / w - x) with (((y - x) + (- (1)) * (x * (w - 1))) * / w) by (unfold Qcdiv; replace x with (x * (w * / w)) at 3 by (rewrite I1; ring); ring).
    apply bd_mono with ((e * B + 1 * (B * e)) * (1 + e + e)); [|unfold g; qc_lra].
    apply bd_mul; [|split; qc_lra]. apply bd_add; [exact HY|]. apply bd_mul; [split; discriminate|]. apply bd_mul; assumption. }
  assert (bd (y / w) ((1 + g) * B)) as Q2.
  { replace (y / w) with (x + (y / w - x)) by ring. replace ((1 + g) * B) with (B + g * B) by ring. apply bd_add; assumption. }
  assert (bd (z - y / w) (p2 (-53) * ((1 + g) * B))) as Q3.
  { apply (proj2 (bd_abs _ _)). eapply Qcle_trans; [exact F|]. apply mul_le_l; [apply lt_le, p2_pos|]. apply (proj1 (bd_abs _ _)). exact Q2. }
  assert (bd (z - x) (p2 (-53) * ((1 + g) * B) + g * B)) as Q4 by (replace (z - x) with ((z - y / w) + (y / w - x)) by ring; apply bd_add; assumption).
  assert (p2 (-53) * ((1 + g) * B) + g * B <= p2 (-44) * B) as Q5.
  { replace (p2 (-53) * ((1 + g) * B) + g * B) with ((p2 (-53) * (1 + g) + g) * B) by ring. apply Qcmult_le_compat_r; [|exact B0]. vm_compute. discriminate. }
  destruct Q4. split; qc_lra.
Qed.

Lemma box_point fl P q v b B : rounds (p2 (-53)) fl -> 0 <= B -> bd (ww q - 1) (p2 (-46)) -> (forall f, f = wx \/ f = wy \/ f = wz -> bd (f P) B /\ bd (f q - f P) (p2 (-46) * B)) ->
  rounded_point fl q v -> inside b v -> inside (grown b (p2 (-44) * B)) (xyz P).
Proof.
  intros R B0 HW HF (X & Y & Z) I.
  pose proof (box_coord fl (wx P) (wx q) (ww q) (vx v) B R B0 HW (proj1 (HF wx ltac:(auto))) (proj2 (HF wx ltac:(auto))) X) as DX.
  pose proof (box_coord fl (wy P) (wy q) (ww q) (vy v) B R B0 HW (proj1 (HF wy ltac:(auto))) (proj2 (HF wy ltac:(auto))) Y) as DY.
  pose proof (box_coord fl (wz P) (wz q) (ww q) (vz v) B R B0 HW (proj1 (HF wz ltac:(auto))) (proj2 (HF wz ltac:(auto))) Z) as DZ.
  set (d := p2 (-44) * B) in *. intros ax. specialize (I ax). destruct b as [lo hi], I as (I1 & I2). destruct ax; cbn [coord grown bmin bmax vx vy vz xyz] in *; destruct DX, DY, DZ; split; qc_lra.
Qed.

(** a half *)
Lemma half_nearly fl c n c1 d1 k B lo hi : in_doubles fl -> good_curve c n -> unit_weights (nc_cps c) -> knot (nc_knots c) (nc_degree c) <= lo -> hi <= knot (nc_knots c) (n + 1) ->
  part_of c c1 n lo hi -> nc_degree d1 = nc_degree c -> nc_knots d1 = nc_knots c1 -> interval_current d1 -> (k <= 64)%nat -> 0 <= B ->
  vrows (fun _ => v4near (p2 (-53)) k B 1) (nc_cps c1) (nc_cps d1) -> (forall q, In q (nc_cps d1) -> exists v, rounded_point fl q v /\ inside (nc_aabb d1) v) ->
  traces_nearly fl B d1 c lo hi.
Proof.
  intros FD G UW H1 H2 PO DD DK DI K64 B0 VR BX. pose proof (in_doubles_rounds fl FD) as RF.
  destruct (part_traces c c1 n lo hi G UW H1 H2 PO) as (m & G1 & D1 & U1 & _ & L1 & L2 & EV).
  destruct (near_curve fl c1 d1 m k B FD G1 U1 ltac:(congruence) DK K64 B0 VR) as (GD & PD & NR & EN).
  exists m. split; [exact GD|]. split; [exact DD|]. split; [exact PD|]. split; [exact DI|]. rewrite DK. split; [exact L1|]. split; [exact L2|].
  intros u Hu1 Hu2. assert (in_curve c1 m u) as Hu by (unfold in_curve; rewrite D1; split; [rewrite L1|rewrite L2]; assumption).
  destruct (EN u Hu) as (_ & p & q & Ep & Eq & PW & EF). destruct (EV u Hu1 Hu2) as (pt & E1 & E2 & _). rewrite Ep in E1. injection E1 as <-.
  exists p, q. split; [exact E2|]. split; [exact Eq|]. split; [exact PW|]. split; [|exact EF].
  destruct (hull_top c1 m u G1 Hu (unit_positive _ U1)) as (pt & E1 & _ & HB). rewrite Ep in E1. injection E1 as <-. apply HB. intros w Hw.
  apply (In_nth _ _ d4) in Hw. destruct Hw as (i & Hi & <-). pose proof G1 as (LC & _). pose proof GD as (LD & _). destruct (NR i ltac:(lia)) as (NW & NC).
  destruct (BX (nth i (nc_cps d1) d4)) as (v & V1 & V2); [apply nth_In; lia|]. eapply box_point; eassumption.
Qed.

Lemma vrows_firstn R k l l' : vrows (fun _ => R) l l' -> vrows (fun _ => R) (firstn k l) (firstn k l').
Proof.
  intros (L & H). split; [rewrite !firstn_length; lia|]. intros i Hi. rewrite firstn_length in Hi. rewrite !nth_firstn_lt by lia. apply H. lia.
Qed.
Lemma vrows_skipn R k l l' : vrows (fun _ => R) l l' -> vrows (fun _ => R) (skipn k l) (skipn k l').
Proof.
  intros (L & H). split; [rewrite !skipn_length; lia|]. intros i Hi. rewrite skipn_length in Hi. rewrite !nth_skipn_add. apply H. lia.
Qed.

Lemma same_points l l' : length l = length l' -> (forall i, (i < length l)%nat -> forall f, comp4 f -> f (nth i l d4) = f (nth i l' d4)) -> l = l'.
Proof.
  intros L H. apply (nth_ext _ _ d4 d4 L). intros i Hi. specialize (H i Hi).
  pose proof (H wx (or_introl eq_refl)) as X. pose proof (H wy (or_intror (or_introl eq_refl))) as Y. pose proof (H wz (or_intror (or_intror (or_introl eq_refl)))) as Z.
  pose proof (H ww (or_intror (or_intror (or_intror eq_refl)))) as W. destruct (nth i l d4), (nth i l' d4). cbn in X, Y, Z, W. congruence.
Qed.

Lemma split_double fl c n t B : in_doubles fl -> good_curve c n -> (1 <= nc_degree c)%nat -> unit_weights (nc_cps c) -> interval_current c ->
  knot (nc_knots c) (nc_degree c) < t -> t < knot (nc_knots c) (n + 1) ->
  clear_of (p2 (-53)) (nc_knots c) t -> (multiplicity (nc_knots c) t <= nc_degree c)%nat -> coords_up_to B (nc_cps c) ->
  match fsplit fl c t with
  | Ok (d1, d2) => traces_nearly fl B d1 c (knot (nc_knots c) (nc_degree c)) t /\ traces_nearly fl B d2 c t (knot (nc_knots c) (n + 1))
  | Throw e => e = ERuntime
  | UB => False
  end.
Proof.
  intros FD GC H1 UW HI D1 D2 CL Hm HB. pose proof (in_doubles_rounds fl FD) as RF. pose proof (clear_separated _ _ _ (proj1 RF) (proj1 (proj2 RF)) CL) as SEP.
  pose proof GC as (HP & V & H8). destruct (domain_span n _ _ t V (lt_le _ _ D1) D2) as (k & Hk & T1 & T2).
  destruct (split_ok c n t k HP V ltac:(lia) UW HI Hk T1 T2 D1 D2 SEP Hm) as (c1 & c2 & _ & PO1 & PO2 & EK1 & EK2 & cps & Lcps & Gcps & EC1 & EC2 & _).
  assert (0 <= B) as B0. { destruct (nc_cps c) as [|q P]; [discriminate HP|]. destruct (HB q (or_introl eq_refl)) as (A & _). eapply Qcle_trans; [apply Qcabs_nonneg|exact A]. }
  pose proof V as (Hpn & HL & HS & HN). pose proof (sorted_mono (nc_knots c) HS) as M.
  unfold fsplit. rewrite HI.
  assert (knot (nc_knots c) 0 <= knot (nc_knots c) (nc_degree c)) as Z0 by (apply M; lia).
  assert (knot (nc_knots c) (n + 1) <= knot (nc_knots c) (length (nc_knots c) - 1)) as Z1 by (apply M; lia).
  assert ((t <=? knot (nc_knots c) 0) || (knot (nc_knots c) (length (nc_knots c) - 1) <=? t) = false) as -> by (apply orb_false_intro; qcb; qc_lra).
  unfold rnd. destruct (fl 0%nat (t - knot (nc_knots c) 0)) as [d0|] eqn:F0; [|reflexivity]. cbn [bind].
  rewrite (clear_rounded (p2 (-53)) fl t (knot (nc_knots c) 0) d0 RF) by (exact F0 || (apply CL; rewrite knot_nth by lia; apply nth_In; lia)).
  assert ((t =? knot (nc_knots c) 0) = false) as -> by (qcb; intros Q; rewrite Q in D1; qc_lra).
  destruct (fl 0%nat (t - knot (nc_knots c) (length (nc_knots c) - 1))) as [d1|] eqn:F1; [|reflexivity]. cbn [bind].
  rewrite (clear_rounded (p2 (-53)) fl t (knot (nc_knots c) (length (nc_knots c) - 1)) d1 RF) by (exact F1 || (apply CL; rewrite knot_nth by lia; apply nth_In; lia)).
  assert ((t =? knot (nc_knots c) (length (nc_knots c) - 1)) = false) as -> by (qcb; intros Q; rewrite Q in D2; qc_lra).
  rewrite HP. rewrite (find_span_at (S n) (nc_degree c) (nc_knots c) k t M) by (lia || assumption). cbn [bind].
  pose proof (mult_from (p2 (-53)) fl t (nc_knots c) RF CL 0) as MF. unfold ffind_multiplicity. destruct (fmultiplicity_from fl 0 t (nc_knots c)) as [mu|e|]; [|exact MF|exact MF].
  cbn [Nat.add] in MF. cbn [bind]. subst mu. set (s := multiplicity (nc_knots c) t) in *.
  destruct (multiplicity_span (nc_knots c) k t HS ltac:(lia) T1 T2) as (S1 & S2 & S3). fold s in S1, S2, S3.
  destruct (Nat.ltb_spec (nc_degree c) s); [lia|]. set (r := (nc_degree c - s)%nat) in *.
  assert (nc_cps c <> []) as PNE by (intros E; rewrite E in HP; discriminate).
  assert (nc_knots c <> []) as UNE by (intros E; rewrite E in HL; cbn in HL; lia).
  pose proof (fmake_ok fl (nc_cps c) (nc_degree c) (nc_knots c) (nc_periodic c) (unit_positive _ UW) PNE HS UNE) as MK.
  destruct (fmake_knots fl (nc_cps c) (nc_degree c) (nc_knots c) (nc_periodic c)) as [tm|e|]; [|exact MK|exact MK]. destruct MK as (T_c & T_d & T_k & _ & _ & _). cbn [bind].
  rewrite update_interval_sorted by (rewrite T_k; assumption). cbn [bind]. set (tm2 := nc_set_interval tm _).
  assert (nc_knots tm2 = nc_knots c) as K2 by exact T_k. assert (nc_cps tm2 = nc_cps c) as C2 by exact T_c. assert (nc_degree tm2 = nc_degree c) as P2 by exact T_d. clearbody tm2.
  assert (good_curve tm2 n) as GT by (unfold good_curve; rewrite K2, C2, P2; exact GC).
  destruct (insert_knot_ok tm2 n t r k) as (cps' & kv & iv & E1 & Ekv & Eiv & Lc & G); try (rewrite ?K2, ?C2, ?P2; fold s; lia || assumption).
  rewrite K2, P2 in *.
  assert (cps' = cps) as ->.
  { apply same_points; [lia|]. intros i Hi f Hf. rewrite (G i ltac:(lia) f Hf), (Gcps i ltac:(lia) f Hf), C2. reflexivity. }
  pose proof (insert_follows (p2 (-53)) fl RF tm2 n t r B 1 (nc_set_interval (nc_set_knots (nc_set_cps tm2 cps) kv) iv) GT) as IF. rewrite K2, C2, P2 in IF.
  specialize (IF (lt_le _ _ D1) D2 CL ltac:(fold s; lia) HB).
  specialize (IF ltac:(intros q Hq; rewrite (UW q Hq); discriminate) E1).
  destruct (finsert_knot fl tm2 t r) as [T|e|]; [|exact IF|exact IF]. destruct IF as (ET & VR). cbn [bind nc_set_interval nc_set_knots nc_set_cps nc_cps] in VR. cbn [bind].
  assert (nc_knots T = kv) as TK by (rewrite ET; reflexivity). rewrite TK. set (Q := nc_cps T) in *. clearbody Q. clear ET TK.
  pose proof VR as (LQ & _). rewrite Lc in LQ.
  destruct (inserted_valid n (nc_degree c) (nc_knots c) k t r V Hk T1 T2) as (V' & Vp & Vn). rewrite <- Ekv in V', Vp, Vn.
  pose proof V' as (Hpn' & HL' & HS' & HN'). pose proof (sorted_mono kv HS') as M'.
  assert (forall i, knot kv i = insr (knot (nc_knots c)) k t r i) as KV by (intros; rewrite Ekv; apply kv_knot; lia).
  destruct (insr_le (knot (nc_knots c)) k t T1 T2 r) as [IL1 IL2]. rewrite <- !KV in IL1, IL2.
  rewrite <- LQ. rewrite (find_span_at (S n + r) (nc_degree c) kv (k + r) t M') by (lia || assumption). cbn [bind].
  replace 0%Z with (Z.of_nat 0) by reflexivity. set (a := (k - s)%nat).
  rewrite sub_vec_ok by lia. cbn [bind]. rewrite sub_vec_ok by lia. cbn [bind].
  replace (Z.of_nat k - Z.of_nat (nc_degree c) + 1 + Z.of_nat r)%Z with (Z.of_nat (S a)) by lia.
  replace (Z.of_nat (S a) - 1)%Z with (Z.of_nat a) by lia.
  rewrite sub_vec_ok by lia. cbn [bind]. rewrite sub_vec_ok by lia. cbn [bind]. cbn [skipn]. rewrite !Nat.sub_0_r.
  assert (firstn (k + r + 1) kv = firstn (k + 1) (nc_knots c) ++ repeat t r) as FF1.
  { rewrite Ekv, app_assoc. apply firstn_app_exact. rewrite app_length, firstn_length, repeat_length. lia. }
  assert (firstn (length kv - (k + r + 1)) (skipn (k + r + 1) kv) = skipn (k + 1) (nc_knots c)) as FF2.
  { rewrite firstn_all2 by (rewrite skipn_length; lia). rewrite Ekv, app_assoc. apply skipn_app_exact.
    rewrite app_length, firstn_length, repeat_length. lia. }
  rewrite FF1, FF2. rewrite (firstn_all2 (skipn a Q)) by (rewrite skipn_length; lia). rewrite <- app_assoc, <- EK1, <- EK2.
  assert (8 * r <= 64)%nat as R64 by lia.
  assert (positive_weights Q) as PQ.
  { intros q Hq. apply (In_nth _ _ d4) in Hq. destruct Hq as (i & Hi & <-). destruct VR as (_ & VR). specialize (VR i ltac:(lia)). cbv beta in VR. destruct VR as (_ & _ & _ & W).
    apply (near_double _ 6) in W; [|exact R64|lia]. assert (ww (nth i cps d4) = 1) as W1.
    { assert (In (nth i cps d4) (nc_cps c1) \/ In (nth i cps d4) (nc_cps c2)) as [I|I].
      - rewrite EC1, EC2. destruct (Nat.lt_ge_cases i (k - s)).
        + left. replace (nth i cps d4) with (nth i (firstn (S (k - s)) cps) d4) by (apply nth_firstn_lt; lia). apply nth_In. rewrite firstn_length. lia.
        + right. replace i with (k - s + (i - (k - s)))%nat by lia. rewrite <- nth_skipn_add. apply nth_In. rewrite skipn_length. lia.
      - destruct PO1 as (m1 & PO1). apply PO1. exact I.
      - destruct PO2 as (m2 & PO2). apply PO2. exact I. }
    rewrite W1, Qcmult_1_r in W. destruct W as (W2 & W3). assert (p2 (Z.of_nat 6 - 52) < 1) by reflexivity. qc_lra. }
  assert (sorted (nc_knots c1) /\ nc_knots c1 <> []) as (SK1 & NK1).
  { destruct PO1 as (m1 & _ & (_ & L' & S' & _) & _). split; [exact S'|]. intros E. rewrite E in L'. cbn in L'. lia. }
  assert (sorted (nc_knots c2) /\ nc_knots c2 <> []) as (SK2 & NK2).
  { destruct PO2 as (m2 & _ & (_ & L' & S' & _) & _). split; [exact S'|]. intros E. rewrite E in L'. cbn in L'. lia. }
  pose proof (fmake_ok fl (firstn (S a) Q) (nc_degree c) (nc_knots c1) false) as MK1.
  specialize (MK1 ltac:(intros q Hq; apply PQ; rewrite <- (firstn_skipn (S a) Q); apply in_or_app; left; exact Hq)).
  specialize (MK1 ltac:(intros E; apply (f_equal (@length vec4)) in E; rewrite firstn_length in E; cbn [length] in E; lia) SK1 NK1).
  destruct (fmake_knots fl (firstn (S a) Q) (nc_degree c) (nc_knots c1) false) as [h1|e|]; [|exact MK1|exact MK1]. cbn [bind].
  pose proof (fmake_ok fl (skipn a Q) (nc_degree c) (nc_knots c2) false) as MK2.
  specialize (MK2 ltac:(intros q Hq; apply PQ; rewrite <- (firstn_skipn a Q); apply in_or_app; right; exact Hq)).
  specialize (MK2 ltac:(intros E; apply (f_equal (@length vec4)) in E; rewrite skipn_length in E; cbn [length] in E; lia) SK2 NK2).
  destruct (fmake_knots fl (skipn a Q) (nc_degree c) (nc_knots c2) false) as [h2|e|]; [|exact MK2|exact MK2]. cbn [bind].
  destruct MK1 as (A1 & A2 & A3 & _ & A5 & A6). destruct MK2 as (B1 & B2 & B3 & _ & B5 & B6). split.
  - apply (half_nearly fl c n c1 h1 (8 * r) B); try assumption; [apply Qcle_refl|apply lt_le; exact D2|unfold interval_current; rewrite A3; exact A5| |rewrite A1; exact A6].
    rewrite EC1, A1. apply vrows_firstn. exact VR.
  - apply (half_nearly fl c n c2 h2 (8 * r) B); try assumption; [apply lt_le; exact D1|apply Qcle_refl|unfold interval_current; rewrite B3; exact B5| |rewrite B1; exact B6].
    rewrite EC2, B1. apply vrows_skipn. exact VR.
Qed.

Lemma exact_to v : fto_vec3 (fun _ => Some) v = to_vec3 v.
Proof. unfold fto_vec3, to_vec3, fdiv, rnd. destruct (qdiv (wx v) (ww v)); [|reflexivity..]. destruct (qdiv (wy v) (ww v)); [|reflexivity..]. destruct (qdiv (wz v) (ww v)); reflexivity. Qed.
Lemma exact_mapM l : mapM (fto_vec3 (fun _ => Some)) l = mapM to_vec3 l.
Proof. induction l as [|a l IH]; [reflexivity|]. cbn [mapM]. rewrite exact_to, IH. reflexivity. Qed.
Lemma exact_make cps p kv per : fmake_knots (fun _ => Some) cps p kv per = nc_make_knots cps p kv per.
Proof.
  unfold fmake_knots, nc_make_knots. destruct (update_interval _) as [c|e|]; [|reflexivity..]. cbn [bind]. unfold frebuildAABB, rebuildAABB.
  destruct (nc_cps c) as [|a l]; [reflexivity|]. rewrite exact_to, exact_mapM. reflexivity.
Qed.
Lemma exact_split c t : fsplit (fun _ => Some) c t = nc_split c t false.
Proof.
  unfold fsplit, nc_split. destruct (nc_interval c) as [i0 i1]. unfold rnd, ffind_multiplicity. rewrite exact_mult. fold (find_multiplicity t (nc_knots c)).
  destruct (t <=? i0); [reflexivity|]. destruct (i1 <=? t); [reflexivity|]. cbn [bind orb].
  destruct (Qcabs (t - i0) <=? lit_1em12); [reflexivity|]. destruct (Qcabs (t - i1) <=? lit_1em12); [reflexivity|]. cbn [orb].
  destruct (find_span _ _ _ _) as [sp|e|]; [|reflexivity..]. cbn [bind]. destruct (Nat.ltb _ _); [reflexivity|]. rewrite exact_make.
  destruct (nc_make_knots _ _ _ _) as [tm|e|]; [|reflexivity..]. cbn [bind]. destruct (update_interval tm) as [tm2|e|]; [|reflexivity..]. cbn [bind]. rewrite exact_insert.
  destruct (insert_knot _ _ _) as [T|e|]; [|reflexivity..]. cbn [bind].
  destruct (find_span _ _ _ (nc_knots T)) as [sp2|e|]; [|reflexivity..]. cbn [bind].
  destruct (sub_vec (nc_knots T) 0 _) as [k1|e|]; [|reflexivity..]. cbn [bind].
  destruct (sub_vec (nc_knots T) _ _) as [k2|e|]; [|reflexivity..]. cbn [bind].
  destruct (sub_vec (nc_cps T) 0 _) as [p1|e|]; [|reflexivity..]. cbn [bind].
  destruct (sub_vec (nc_cps T) _ _) as [p2|e|]; [|reflexivity..]. cbn [bind]. rewrite !exact_make. reflexivity.
Qed.
