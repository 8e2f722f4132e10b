(** The recursive pair query in double arithmetic. *)
From Coq Require Import List ZArith QArith Qcanon Permutation Bool Lia Lqa.
From Verif Require Import Base BaseFacts ModelVec ModelAabb ModelBvh ModelRoundBvh SpecAabb SpecBvh SpecRound SpecRoundKd SpecRoundBvh ProofAabb ProofBvh ProofRound ProofRoundDouble ProofRoundHull ProofRoundFull ProofRoundKd.
Import ListNotations.
Open Scope Qc_scope.

Lemma dlt_true v : dlt v lit_1em6 = true -> ~ not_below v.
Proof. destruct v; cbn; try discriminate. intros H. qcb. intros L. qc_lra. Qed.
Lemma dlt_false v : dlt v lit_1em6 = false -> not_below v.
Proof. destruct v; cbn; try tauto. intros H. qcb. exact H. Qed.
Lemma lit_pos : 0 < lit_1em6. Proof. reflexivity. Qed.

Section Doubles.
Variable fl : nat -> Qc -> option Qc.
Hypothesis FL : in_all_doubles fl.

(** larger sides: the product is larger, or infinite, or NaN *)
Definition dnn (a : dnum) : Prop := match a with Num x => 0 <= x | _ => True end.
Definition dle (a b : dnum) : Prop :=
  match a, b with
  | Num x, Num y => x <= y
  | Num _, _ => True
  | Infinite, Num _ => False
  | Infinite, _ => True
  | NaN, Num _ => False
  | NaN, _ => True
  end.
Lemma dle_keeps a b : dle a b -> not_below a -> not_below b.
Proof. destruct a, b; cbn; try tauto. intros H L. eapply Qcle_trans; eassumption. Qed.
Lemma dof_mono x y : 0 <= x -> x <= y -> dle (dof (fl 0 x)) (dof (fl 0 y)).
Proof. intros A B. pose proof (fl_mono fl FL 0 x y A B) as M. destruct (fl 0%nat x), (fl 0%nat y); cbn in *; tauto. Qed.
Lemma dof_nn x : 0 <= x -> dnn (dof (fl 0 x)).
Proof. intros A. destruct (fl 0%nat x) as [y|] eqn:E; [|exact I]. exact (fl_nonneg fl FL 0 x y A E). Qed.
Lemma dmul_nn a b : dnn a -> dnn b -> dnn (dmul fl a b).
Proof.
  destruct a as [x| |], b as [y| |]; cbn [dmul dnn]; try tauto; intros A B.
  - apply dof_nn, mul_nonneg; assumption.
  - destruct (Qceqb x 0); exact I.
  - destruct (Qceqb y 0); exact I.
Qed.
Lemma dle_inf a : dle a Infinite. Proof. destruct a; exact I. Qed.
Lemma dle_nan a : dle a NaN. Proof. destruct a; exact I. Qed.
Lemma dle_dof_zero a : a = 0 -> dof (fl 0 a) = Num 0.
Proof. intros ->. rewrite (proj1 FL). unfold round_full. rewrite unbounded_0. reflexivity. Qed.
Lemma dmul_mono a b a' b' : dnn a -> dnn b -> dle a a' -> dle b b' -> dle (dmul fl a b) (dmul fl a' b').
Proof.
  intros A B H K. destruct a' as [x'| |], b' as [y'| |]; cbn [dmul]; try (apply dle_nan || apply dle_inf).
  - destruct a as [x| |]; try contradiction. destruct b as [y| |]; try contradiction. cbn in *. apply dof_mono; [apply mul_nonneg; assumption|]. qc_nra.
  - destruct (Qceqb x' 0); [apply dle_nan|apply dle_inf].
  - destruct (Qceqb y' 0); [apply dle_nan|apply dle_inf].
Qed.
Lemma volume_keeps c c' : proper c -> encl c c' -> not_below (fvolume fl c) -> not_below (fvolume fl c').
Proof.
  intros P E. apply dle_keeps. unfold fvolume.
  assert (forall ax, 0 <= coord (bmax c) ax - coord (bmin c) ax /\ coord (bmax c) ax - coord (bmin c) ax <= coord (bmax c') ax - coord (bmin c') ax) as S.
  { intros ax. specialize (P ax). destruct (E ax). split; qc_lra. }
  destruct (S AX) as (X0 & X1). destruct (S AY) as (Y0 & Y1). destruct (S AZ) as (Z0 & Z1). cbn [coord] in *.
  apply dmul_mono; [apply dmul_nn; apply dof_nn; assumption|apply dof_nn; assumption|apply dmul_mono|]; (apply dof_nn || apply dof_mono); assumption.
Qed.

Definition fbig (p : obj * obj) : Prop :=
  exists c, aabb_intersection (obox (fst p)) (obox (snd p)) = Some c /\ not_below (fvolume fl c).

Lemma fwf_no_big b1 os1 t1 b2 os2 t2 : wf b1 os1 t1 -> wf b2 os2 t2 -> prop os1 -> prop os2 ->
  (aabb_intersection b1 b2 = None \/ exists c, aabb_intersection b1 b2 = Some c /\ dlt (fvolume fl c) lit_1em6 = true) ->
  forall x, In x (list_prod os1 os2) -> ~ fbig x.
Proof.
  intros W1 W2 P1 P2 HC [x y] Hx (c & E & V). apply in_prod_iff in Hx. destruct Hx as [Hx Hy]. cbn in E.
  assert (E1 := wf_encl _ _ _ W1 _ Hx). assert (E2 := wf_encl _ _ _ W2 _ Hy).
  assert (X : aabb_intersects b1 b2 = true).
  { eapply encl_intersects; [exact E1|exact E2|]. apply intersection_some. eauto. }
  apply intersection_some in X. destruct X as [c' E']. rewrite E' in HC.
  destruct HC as [HC|(c'' & HC & HV)]; [discriminate|]. injection HC as <-.
  assert (EC := intersection_encl _ _ _ _ _ _ E1 E2 E E').
  assert (PC := intersection_proper _ _ _ (P1 _ Hx) (P2 _ Hy) E).
  apply dlt_true in HV. exact (HV (volume_keeps _ _ PC EC V)).
Qed.

Lemma frec_spec b1 os1 t1 : wf b1 os1 t1 -> prop os1 -> forall b2 os2 t2, wf b2 os2 t2 -> prop os2 ->
  reports fbig (list_prod os1 os2) (fintersect_bvh fl t1 t2).
Proof.
  induction 1 as [o1|b1 c1 c2 p1 p2 l1 r1 V1 IHl V2 IHr I1 I2 IM]; intros PR1 b2 os2 t2 W2 PR2.
  - set (n1 := BNode (obox o1) (Some o1) BNull BNull).
    assert (W1 : wf (obox o1) [o1] n1) by constructor.
    induction W2 as [o2|b2 d1 d2 q1 q2 l2 r2 U1 IH1 U2 IH2 J1 J2 JM].
    + assert (W2 := wf_leaf o2). cbn [fintersect_bvh n1]. fold n1. destruct (aabb_intersection (obox o1) (obox o2)) as [c|] eqn:E.
      * destruct (dlt (fvolume fl c) lit_1em6) eqn:EV.
        -- apply reports_none. eapply fwf_no_big; try eassumption. right. exists c. split; [assumption|]. assumption.
        -- exists [(o1, o2)]. split; [repeat constructor|]. apply selects_one. exists c. split; [assumption|]. apply dlt_false. assumption.
      * apply reports_none. eapply fwf_no_big; try eassumption. left. assumption.
    + assert (WX2 : wf b2 (q1 ++ q2) (BNode b2 None l2 r2)) by (econstructor; eassumption).
      apply prop_app in PR2 as PR2'. destruct PR2' as [PA PB].
      specialize (IH1 PA). specialize (IH2 PB).
      cbn [fintersect_bvh n1]. fold n1.
      destruct (aabb_intersection (obox o1) b2) as [c|] eqn:E.
      2: { apply reports_none. eapply fwf_no_big; try eassumption. left. assumption. }
      destruct (dlt (fvolume fl c) lit_1em6) eqn:EV.
      { apply reports_none. eapply fwf_no_big; try eassumption. right. exists c. split; [assumption|]. assumption. }
      cbn [has_obj andb is_null].
      eapply reports_perm; [symmetry; apply list_prod_app_r|]. apply reports_app; assumption.
  - assert (WX1 : wf b1 (p1 ++ p2) (BNode b1 None l1 r1)) by (econstructor; eassumption).
    apply prop_app in PR1 as PR1'. destruct PR1' as [PA PB]. specialize (IHl PA). specialize (IHr PB).
    assert (WX2 := W2).
    destruct W2 as [o2|b2 d1 d2 q1 q2 l2 r2 U1 U2 J1 J2 JM]; cbn [fintersect_bvh].
    + destruct (aabb_intersection b1 (obox o2)) as [c|] eqn:E.
      2: { apply reports_none. eapply fwf_no_big; try eassumption. left. assumption. }
      destruct (dlt (fvolume fl c) lit_1em6) eqn:EV.
      { apply reports_none. eapply fwf_no_big; try eassumption. right. exists c. split; [assumption|]. assumption. }
      cbn [has_obj andb]. rewrite (wf_nonnull _ _ _ V1). cbn [andb is_null].
      rewrite list_prod_app_l. apply reports_app; [exact (IHl _ _ _ WX2 PR2) | exact (IHr _ _ _ WX2 PR2)].
    + destruct (aabb_intersection b1 b2) as [c|] eqn:E.
      2: { apply reports_none. eapply fwf_no_big; try eassumption. left. assumption. }
      destruct (dlt (fvolume fl c) lit_1em6) eqn:EV.
      { apply reports_none. eapply fwf_no_big; try eassumption. right. exists c. split; [assumption|]. assumption. }
      cbn [has_obj andb]. rewrite (wf_nonnull _ _ _ V1), (wf_nonnull _ _ _ U1). cbn [andb is_null].
      apply prop_app in PR2. destruct PR2 as [QA QB].
      eapply reports_perm; [symmetry; apply list_prod_four|].
      apply reports_app; [exact (IHl _ _ _ U1 QA)|]. apply reports_app; [exact (IHl _ _ _ U2 QB)|].
      apply reports_app; [exact (IHr _ _ _ U1 QA) | exact (IHr _ _ _ U2 QB)].
Qed.

Lemma box_same c c' : proper c -> proper c' -> (forall p, inside c p <-> inside c' p) -> forall ax, coord (bmin c) ax = coord (bmin c') ax /\ coord (bmax c) ax = coord (bmax c') ax.
Proof.
  intros P P' H. assert (forall a b, proper a -> proper b -> (forall p, inside a p -> inside b p) -> forall ax, coord (bmin b) ax <= coord (bmin a) ax /\ coord (bmax a) ax <= coord (bmax b) ax) as ONE.
  { intros a b Pa _ Hab ax. split; [apply (Hab (bmin a))|apply (Hab (bmax a))]; intros ax'; split; try apply Qcle_refl; apply Pa. }
  intros ax. destruct (ONE c c' P P' (fun p => proj1 (H p)) ax). destruct (ONE c' c P' P (fun p => proj2 (H p)) ax). split; apply Qcle_antisym; assumption.
Qed.
Lemma fvolume_same c c' : (forall ax, coord (bmin c) ax = coord (bmin c') ax /\ coord (bmax c) ax = coord (bmax c') ax) -> c = c'.
Proof.
  intros H. destruct (H AX), (H AY), (H AZ). destruct c as [[] []], c' as [[] []]. cbn in *. congruence.
Qed.
Lemma common_is a b c c' : proper a -> proper b -> aabb_intersection a b = Some c -> common_box a b c' -> c = c'.
Proof.
  intros Ha Hb E (P & H). apply fvolume_same, box_same; [exact (intersection_proper _ _ _ Ha Hb E)|exact P|].
  intros p. rewrite (intersection_points _ _ _ E p). symmetry. apply H.
Qed.
Lemma common_some a b c : proper a -> proper b -> common_box a b c -> aabb_intersection a b = Some c.
Proof.
  intros Ha Hb C. assert (X : aabb_intersects a b = true).
  { apply intersects_common; [assumption..|]. exists (bmin c). apply (proj2 C). apply proper_inside_min. apply C. }
  apply intersection_some in X. destruct X as [c' E]. rewrite E. f_equal. exact (common_is _ _ _ _ Ha Hb E C).
Qed.
Lemma some_common a b c : proper a -> proper b -> aabb_intersection a b = Some c -> common_box a b c.
Proof. intros Ha Hb E. split; [exact (intersection_proper _ _ _ Ha Hb E)|apply intersection_points; assumption]. Qed.

Lemma fbuild_pairs part1 order1 sort1 part2 order2 sort2 :
  partition_spec part1 -> axis_order_spec order1 -> sort_spec sort1 ->
  partition_spec part2 -> axis_order_spec order2 -> sort_spec sort2 ->
  forall os1 bu1 os2 bu2,
  Forall (fun o => proper (obox o)) os1 -> Forall (fun o => proper (obox o)) os2 ->
  exists t1 t2 hits,
    build_bvh part1 order1 sort1 os1 bu1 = Some t1 /\ build_bvh part2 order2 sort2 os2 bu2 = Some t2 /\
    Forall2 holds_pair (fintersect_bvh fl t1 t2) hits /\
    selects (fun p => exists c, common_box (obox (fst p)) (obox (snd p)) c /\ not_below (fvolume fl c))
            (list_prod os1 os2) hits.
Proof.
  intros HP1 _ HS1 HP2 _ HS2 os1 bu1 os2 bu2 F1 F2.
  destruct (build_any part1 order1 sort1 HP1 HS1 os1 bu1) as (t1 & B1 & C1).
  destruct (build_any part2 order2 sort2 HP2 HS2 os2 bu2) as (t2 & B2 & C2).
  rewrite Forall_forall in F1, F2.
  assert (R : reports fbig (list_prod os1 os2) (fintersect_bvh fl t1 t2)).
  { destruct C1 as [[-> ->]|(b1 & os1' & W1 & P1)].
    - destruct t2; apply reports_none; intros ? [].
    - destruct C2 as [[-> ->]|(b2 & os2' & W2 & P2)].
      + rewrite list_prod_nil_r. destruct t1; apply reports_none; intros ? [].
      + eapply reports_perm; [apply list_prod_perm; symmetry; eassumption|].
        eapply frec_spec; try eassumption; (eapply prop_perm; [eassumption|]); assumption. }
  apply (reports_ext _ (fun p => exists c, common_box (obox (fst p)) (obox (snd p)) c /\ not_below (fvolume fl c))) in R.
  - destruct R as (hits & R1 & R2). exists t1, t2, hits. auto.
  - intros [x y] Hx. apply in_prod_iff in Hx. destruct Hx as [Hx Hy]. cbn [fst snd]. unfold fbig. cbn [fst snd].
    split; intros (c & A & B); exists c; (split; [|exact B]); [apply some_common|apply common_some]; auto.
Qed.

(** ** Rounding errors *)

Lemma within_mul j k X Y s t : 0 <= X -> 0 <= Y -> 0 <= s -> 0 <= t -> within j X s -> within k Y t -> within (j + k) (X * Y) (s * t).
Proof.
  intros X0 Y0 S0 T0 (A & B) (C & D).
  assert (forall w i l, w ^ (i + l) = w ^ i * w ^ l) as PA by (intros w i l; induction i as [|i IH]; cbn [plus Qcpower]; [ring|rewrite IH; ring]).
  assert (forall w, 0 <= w -> forall j, 0 <= w ^ j) as PW by (intros w W i; induction i as [|i IH]; [discriminate|apply mul_nonneg; assumption]).
  pose proof u53_pos as U0. pose proof u53_lt1 as U1.
  pose proof (mul_nonneg _ _ (PW (1 - u53) ltac:(qc_lra) j) X0) as L1. pose proof (mul_nonneg _ _ (PW (1 - u53) ltac:(qc_lra) k) Y0) as L2.
  split; rewrite PA.
  - replace ((1 - u53) ^ j * (1 - u53) ^ k * (X * Y)) with ((1 - u53) ^ j * X * ((1 - u53) ^ k * Y)) by ring. revert A C L1 L2. generalize ((1 - u53) ^ j * X), ((1 - u53) ^ k * Y). intros. qc_nra.
  - replace ((1 + u53) ^ j * (1 + u53) ^ k * (X * Y)) with ((1 + u53) ^ j * X * ((1 + u53) ^ k * Y)) by ring. revert B D. generalize ((1 + u53) ^ j * X), ((1 + u53) ^ k * Y). intros. qc_nra.
Qed.
Definition fitting (e : Z) (X : Qc) : Prop := X = 0 \/ (p2 (- e) <= X /\ X <= p2 e).
Lemma fitting_nonneg e X : fitting e X -> 0 <= X.
Proof. intros [->|(A & _)]; [discriminate|]. pose proof (p2_pos (- e)). qc_lra. Qed.
Lemma fitting_mul a b X Y : fitting a X -> fitting b Y -> fitting (a + b) (X * Y).
Proof.
  intros [->|(A & B)] F; [left; ring|]. destruct F as [->|(C & D)]; [left; ring|]. right.
  replace (- (a + b))%Z with (- a + - b)%Z by lia. rewrite !p2_add. pose proof (p2_pos (- a)). pose proof (p2_pos (- b)).
  revert A B C D H H0. generalize (p2 (- a)), (p2 (- b)), (p2 a), (p2 b). intros. split; qc_nra.
Qed.
Lemma fitting_fit e X : (0 <= e <= 1000)%Z -> fitting e X -> fit X.
Proof.
  intros E [->|(A & B)]; [left; reflexivity|]. right. split; [eapply Qcle_trans; [|exact A]|eapply Qcle_trans; [exact B|]]; apply p2_mono; lia.
Qed.
Lemma within_0 X : within 0 X X. Proof. split; cbn [Qcpower]; qc_lra. Qed.
Lemma within_nonneg k X t : 0 <= X -> within k X t -> 0 <= t.
Proof.
  intros X0 (A & _). pose proof u53_lt1. eapply Qcle_trans; [|exact A]. apply mul_nonneg; [|exact X0].
  clear A. induction k as [|k IH]; [discriminate|]. cbn [Qcpower]. apply mul_nonneg; [qc_lra|exact IH].
Qed.
Lemma volume_within c : sized_box c -> exists v, fvolume fl c = Num v /\ within 5 (aabb_volume c) v.
Proof.
  intros S. pose proof (S AX : fitting 300 _) as SX. pose proof (S AY : fitting 300 _) as SY. pose proof (S AZ : fitting 300 _) as SZ. cbn [coord] in *. unfold fvolume, aabb_volume.
  set (dx := vx (bmax c) - vx (bmin c)) in *. set (dy := vy (bmax c) - vy (bmin c)) in *. set (dz := vz (bmax c) - vz (bmin c)) in *.
  pose proof (fitting_nonneg _ _ SX) as X0. pose proof (fitting_nonneg _ _ SY) as Y0. pose proof (fitting_nonneg _ _ SZ) as Z0.
  destruct (fl_step fl 0 0 dx dx FL ltac:(lia) (fitting_fit 300 _ ltac:(lia) SX) (within_0 _)) as (x & -> & WX).
  destruct (fl_step fl 0 0 dy dy FL ltac:(lia) (fitting_fit 300 _ ltac:(lia) SY) (within_0 _)) as (y & -> & WY).
  destruct (fl_step fl 0 0 dz dz FL ltac:(lia) (fitting_fit 300 _ ltac:(lia) SZ) (within_0 _)) as (z & -> & WZ).
  pose proof (fitting_mul _ _ _ _ SX SY) as SXY. pose proof (fitting_mul _ _ _ _ SXY SZ) as SXYZ.
  pose proof (mul_nonneg _ _ X0 Y0) as XY0.
  pose proof (within_nonneg _ _ _ X0 WX) as x0. pose proof (within_nonneg _ _ _ Y0 WY) as y0. pose proof (within_nonneg _ _ _ Z0 WZ) as z0.
  cbn [dof dmul].
  destruct (fl_step fl 0 2 (dx * dy) (x * y) FL ltac:(lia) (fitting_fit 600 _ ltac:(lia) SXY) (within_mul 1 1 _ _ _ _ X0 Y0 x0 y0 WX WY)) as (a & -> & WA).
  pose proof (within_nonneg _ _ _ XY0 WA) as a0. cbn [dof dmul].
  destruct (fl_step fl 0 4 (dx * dy * dz) (a * z) FL ltac:(lia) (fitting_fit 900 _ ltac:(lia) SXYZ) (within_mul 3 1 _ _ _ _ XY0 Z0 a0 z0 WA WZ)) as (v & -> & WV).
  exists v. split; [reflexivity|exact WV].
Qed.

Lemma fbuild_rounding part1 order1 sort1 part2 order2 sort2 :
  partition_spec part1 -> axis_order_spec order1 -> sort_spec sort1 ->
  partition_spec part2 -> axis_order_spec order2 -> sort_spec sort2 ->
  forall os1 bu1 os2 bu2,
  Forall (fun o => proper (obox o)) os1 -> Forall (fun o => proper (obox o)) os2 ->
  (forall x y c, In x os1 -> In y os2 -> common_box (obox x) (obox y) c -> sized_box c) ->
  exists t1 t2 hits miss,
    build_bvh part1 order1 sort1 os1 bu1 = Some t1 /\ build_bvh part2 order2 sort2 os2 bu2 = Some t2 /\
    Forall2 holds_pair (fintersect_bvh fl t1 t2) hits /\
    Permutation (list_prod os1 os2) (hits ++ miss) /\
    Forall (fun p => exists v, overlap_volume (obox (fst p)) (obox (snd p)) v /\ lit_1em6 <= (1 + p2 (-53)) ^ 5 * v) hits /\
    Forall (fun p => forall v, overlap_volume (obox (fst p)) (obox (snd p)) v -> (1 - p2 (-53)) ^ 5 * v < lit_1em6) miss.
Proof.
  intros HP1 HO1 HS1 HP2 HO2 HS2 os1 bu1 os2 bu2 F1 F2 SZ.
  destruct (fbuild_pairs part1 order1 sort1 part2 order2 sort2 HP1 HO1 HS1 HP2 HO2 HS2 os1 bu1 os2 bu2 F1 F2) as (t1 & t2 & hits & B1 & B2 & HH & miss & PM & HA & HB).
  exists t1, t2, hits, miss. split; [exact B1|]. split; [exact B2|]. split; [exact HH|]. split; [exact PM|].
  assert (forall p, In p (hits ++ miss) -> In (fst p) os1 /\ In (snd p) os2) as INS.
  { intros [x y] Hp. apply (Permutation_in _ (Permutation_sym PM)) in Hp. apply in_prod_iff in Hp. exact Hp. }
  rewrite Forall_forall in HA, HB. split; rewrite Forall_forall.
  - intros p Hp. destruct (HA p Hp) as (c & C & V). destruct (INS p (in_or_app _ _ _ (or_introl Hp))) as (I1 & I2).
    destruct (volume_within c (SZ _ _ _ I1 I2 C)) as (v & E & _ & W). exists (aabb_volume c). split; [exists c; destruct C; auto|].
    rewrite E in V. cbn in V. eapply Qcle_trans; [exact V|exact W].
  - intros p Hp v (c & P & HI & <-). destruct (INS p (in_or_app _ _ _ (or_intror Hp))) as (I1 & I2). assert (common_box (obox (fst p)) (obox (snd p)) c) as C by (split; assumption).
    destruct (volume_within c (SZ _ _ _ I1 I2 C)) as (v & E & W & _).
    destruct (Qclt_le_dec v lit_1em6) as [L|L]; [change u53 with (p2 (-53)) in W; qc_lra|].
    exfalso. apply (HB p Hp). exists c. split; [exact C|]. rewrite E. exact L.
Qed.
End Doubles.
