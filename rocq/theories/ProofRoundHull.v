(** On a grid convex_hull2d makes no rounding errors. *)
From Coq Require Import List ZArith QArith Qcanon Bool Lia Lqa Permutation.
From Verif Require Import Base BaseFacts LoopFacts ModelVec ModelPolygon ModelRound ModelRoundHull SpecNurbs SpecPolygon SpecRound SpecRoundHull
  ProofRound ProofRoundDouble ProofPolygon ProofHull ProofDerivativeTop ProofRefineMisc.
Import ListNotations.
Open Scope Qc_scope.

(** ** numbers that are doubles are not rounded *)
Lemma ofZ_mul a b : ofZ (a * b) = ofZ a * ofZ b.
Proof. apply Qc_is_canon. unfold Qcmult, ofZ. cbn [this Q2Qc]. rewrite !Qred_correct, inject_Z_mult. reflexivity. Qed.
Lemma ofZ_sub a b : ofZ (a - b) = ofZ a - ofZ b.
Proof.
  apply Qc_is_canon. unfold Qcminus, Qcplus, Qcopp, ofZ. cbn [this Q2Qc]. rewrite !Qred_correct. unfold Z.sub. rewrite inject_Z_plus, inject_Z_opp. reflexivity.
Qed.
Lemma ofZ_add a b : ofZ (a + b) = ofZ a + ofZ b.
Proof. apply Qc_is_canon. unfold Qcplus, ofZ. cbn [this Q2Qc]. rewrite !Qred_correct, inject_Z_plus. reflexivity. Qed.
Lemma ofZ_abs a : Qcabs (ofZ a) = ofZ (Z.abs a).
Proof.
  apply Qcabs_case; intros H.
  - f_equal. destruct (Z.le_gt_cases 0 a) as [L|L]; [lia|]. apply ofZ_lt in L. change (ofZ 0) with 0 in L. exfalso. qc_lra.
  - destruct (Z.le_gt_cases a 0) as [L|L]; [|apply ofZ_lt in L; change (ofZ 0) with 0 in L; exfalso; qc_lra].
    rewrite Z.abs_neq by exact L. replace (- a)%Z with (0 - a)%Z by lia. rewrite ofZ_sub. change (ofZ 0) with 0. ring.
Qed.
Lemma ofZ_inj0 a : ofZ a = 0 -> a = 0%Z.
Proof.
  intros H. destruct (Z.lt_trichotomy a 0) as [L|[L|L]]; [|exact L|]; apply ofZ_lt in L; rewrite H in L; discriminate L.
Qed.
Lemma nearest_int z : nearest (ofZ z) = z.
Proof.
  unfold nearest, ofZ. cbn [this Q2Qc]. assert (Qred (inject_Z z) = inject_Z z) as ->.
  { apply Qred_identity. unfold inject_Z. cbn [Qnum Qden]. apply Z.gcd_1_r. }
  unfold inject_Z. cbn [Qnum Qden]. rewrite Z.div_1_r, Z.mod_1_r. reflexivity.
Qed.
Lemma p2_lt_inv a b : p2 a < p2 b -> (a < b)%Z.
Proof. intros H. destruct (Z.lt_ge_cases a b) as [L|L]; [exact L|]. pose proof (p2_mono b a L). exfalso. qc_lra. Qed.

Lemma exact_double m e : (Z.abs m < 2 ^ 53)%Z -> (-1022 <= e <= 960)%Z -> round_double (ofZ m * p2 e) = Some (ofZ m * p2 e).
Proof.
  intros B E. unfold round_double. destruct (Qceqb_spec (ofZ m * p2 e) 0) as [Z0|NZ]; [rewrite Z0; reflexivity|]. cbv zeta.
  assert (m <> 0)%Z as M0 by (intros ->; apply NZ; change (ofZ 0) with 0; ring).
  destruct (exponent_spec _ NZ) as (L & H). set (x := exponent (ofZ m * p2 e)) in *.
  rewrite Qcabs_mul, ofZ_abs in L, H by apply lt_le, p2_pos.
  pose proof (p2_pos e) as PE.
  assert (e <= x)%Z as X1.
  { assert (p2 e < p2 (x + 1)) as K; [|apply p2_lt_inv in K; lia]. pose proof (ofZ_le 1 (Z.abs m) ltac:(lia)) as G. change (ofZ 1) with 1 in G.
    assert (0 <= (ofZ (Z.abs m) - 1) * p2 e) by (apply mul_nonneg; [qc_lra|apply lt_le, PE]). qc_lra. }
  assert (x < e + 53)%Z as X2.
  { apply p2_lt_inv. apply Qcle_lt_trans with (1 := L). replace (e + 53)%Z with (53 + e)%Z by lia. rewrite p2_add. rewrite <- (ofZ_p2 53) by lia.
    apply ofZ_lt in B. assert (0 < (ofZ (2 ^ 53) - ofZ (Z.abs m)) * p2 e) by (apply mul_pos; [qc_lra|exact PE]). qc_lra. }
  destruct (Z.ltb_spec x (-1022)); [lia|].
  assert (ofZ m * p2 e * p2 (52 - x) = ofZ (m * 2 ^ (e + 52 - x))) as EN.
  { rewrite ofZ_mul, ofZ_p2 by lia. replace (e + 52 - x)%Z with (e + (52 - x))%Z by lia. rewrite (p2_add e). ring. }
  rewrite EN, nearest_int. change (Q2Qc (inject_Z (m * 2 ^ (e + 52 - x)))) with (ofZ (m * 2 ^ (e + 52 - x))). rewrite <- EN.
  assert (ofZ m * p2 e * p2 (52 - x) * p2 (x - 52) = ofZ m * p2 e) as ->.
  { pose proof (p2_inv (52 - x)) as I. replace (- (52 - x))%Z with (x - 52)%Z in I by lia. rewrite <- (Qcmult_assoc (ofZ m * p2 e)), I. ring. }
  assert (Qcabs (ofZ m * p2 e) < p2 1024) as K.
  { rewrite Qcabs_mul, ofZ_abs by apply lt_le, p2_pos. apply Qclt_le_trans with (1 := H). apply p2_mono. lia. }
  destruct (Qcltb _ _) eqn:T; [reflexivity|]. qcb. exfalso. qc_lra.
Qed.
Lemma exact_rnd fl k m e : in_doubles fl -> (Z.abs m < 2 ^ 53)%Z -> (-1022 <= e <= 960)%Z -> rnd fl k (ofZ m * p2 e) = Ok (ofZ m * p2 e).
Proof.
  intros (D0 & DK) B E. unfold rnd. destruct (DK k) as [H|H]; rewrite H; [rewrite exact_double by assumption|]; reflexivity.
Qed.

(** ** the operations of convex_hull2d *)
Section Grid.
  Variables (fl : nat -> Qc -> option Qc) (e : Z).
  Hypothesis FL : in_doubles fl.
  Hypothesis HE : (-500 <= e <= 480)%Z.
  Notation g := (on_grid e 25).

  Lemma grid_orient_val p q r : g p -> g q -> g r -> forient_val fl p q r = Ok (orient_val p q r) /\ exists z, orient_val p q r = ofZ z * p2 (e + e).
  Proof.
    intros (i1 & j1 & A1 & B1 & X1 & Y1) (i2 & j2 & A2 & B2 & X2 & Y2) (i3 & j3 & A3 & B3 & X3 & Y3).
    change (Qc_of_Z ?z) with (ofZ z) in *. unfold forient_val, orient_val. rewrite X1, Y1, X2, Y2, X3, Y3.
    assert (forall a b, ofZ a * p2 e - ofZ b * p2 e = ofZ (a - b) * p2 e) as SUB by (intros; rewrite ofZ_sub; ring).
    assert (forall a b, ofZ a * p2 e * (ofZ b * p2 e) = ofZ (a * b) * p2 (e + e)) as MUL by (intros; rewrite ofZ_mul, p2_add; ring).
    assert (forall a b, ofZ a * p2 (e + e) - ofZ b * p2 (e + e) = ofZ (a - b) * p2 (e + e)) as SUB2 by (intros; rewrite ofZ_sub; ring).
    rewrite !SUB, !MUL, SUB2.
    assert (forall a b, Z.abs a < 2 ^ 25 -> Z.abs b < 2 ^ 25 -> Z.abs (a - b) < 2 ^ 26)%Z as DIF by (intros; change (2 ^ 26)%Z with (2 * 2 ^ 25)%Z; lia).
    assert (forall a b, Z.abs a < 2 ^ 26 -> Z.abs b < 2 ^ 26 -> Z.abs (a * b) < 2 ^ 52)%Z as PRO.
    { intros a b Ha Hb. rewrite Z.abs_mul. change (2 ^ 52)%Z with (2 ^ 26 * 2 ^ 26)%Z. apply Z.mul_lt_mono_nonneg; lia. }
    pose proof (PRO _ _ (DIF _ _ B2 B1) (DIF _ _ A3 A2)) as P1. pose proof (PRO _ _ (DIF _ _ A2 A1) (DIF _ _ B3 B2)) as P2.
    assert (forall a, Z.abs a < 2 ^ 26 -> Z.abs a < 2 ^ 53)%Z as W by (intros; lia). assert (forall a, Z.abs a < 2 ^ 52 -> Z.abs a < 2 ^ 53)%Z as W2 by (intros; lia).
    split; [|eexists; reflexivity].
    rewrite (exact_rnd fl 0 (j2 - j1) e FL) by (first [apply W, DIF; assumption | lia]). cbn [bind].
    rewrite (exact_rnd fl 0 (i3 - i2) e FL) by (first [apply W, DIF; assumption | lia]). cbn [bind]. rewrite MUL.
    rewrite (exact_rnd fl 5 _ (e + e) FL) by (first [apply W2; exact P1 | lia]). cbn [bind].
    rewrite (exact_rnd fl 0 (i2 - i1) e FL) by (first [apply W, DIF; assumption | lia]). cbn [bind].
    rewrite (exact_rnd fl 0 (j3 - j2) e FL) by (first [apply W, DIF; assumption | lia]). cbn [bind]. rewrite MUL.
    rewrite (exact_rnd fl 6 _ (e + e) FL) by (first [apply W2; exact P2 | lia]). cbn [bind]. rewrite SUB2.
    apply exact_rnd; [exact FL| |lia]. revert P1 P2. generalize ((j2 - j1) * (i3 - i2))%Z ((i2 - i1) * (j3 - j2))%Z. intros. change (2 ^ 53)%Z with (2 * 2 ^ 52)%Z. lia.
  Qed.
  Lemma grid_orientation p q r : g p -> g q -> g r -> forientation fl p q r = Ok (orientation p q r).
  Proof. intros A B C. unfold forientation. rewrite (proj1 (grid_orient_val p q r A B C)). reflexivity. Qed.
  Lemma grid_dist p q : g p -> g q -> fdist_sq2 fl p q = Ok (dist_sq2 p q).
  Proof.
    intros (i1 & j1 & A1 & B1 & X1 & Y1) (i2 & j2 & A2 & B2 & X2 & Y2).
    change (Qc_of_Z ?z) with (ofZ z) in *. unfold fdist_sq2, dist_sq2. rewrite X1, Y1, X2, Y2.
    assert (forall a b, ofZ a * p2 e - ofZ b * p2 e = ofZ (a - b) * p2 e) as SUB by (intros; rewrite ofZ_sub; ring).
    assert (forall a b, ofZ a * p2 e * (ofZ b * p2 e) = ofZ (a * b) * p2 (e + e)) as MUL by (intros; rewrite ofZ_mul, p2_add; ring).
    assert (forall a b, ofZ a * p2 (e + e) + ofZ b * p2 (e + e) = ofZ (a + b) * p2 (e + e)) as ADD2 by (intros; rewrite ofZ_add; ring).
    rewrite !SUB, !MUL, ADD2.
    assert (forall a b, Z.abs a < 2 ^ 25 -> Z.abs b < 2 ^ 25 -> Z.abs (a - b) < 2 ^ 26)%Z as DIF by (intros; change (2 ^ 26)%Z with (2 * 2 ^ 25)%Z; lia).
    assert (forall a b, Z.abs a < 2 ^ 26 -> Z.abs b < 2 ^ 26 -> Z.abs (a * b) < 2 ^ 52)%Z as PRO.
    { intros a b Ha Hb. rewrite Z.abs_mul. change (2 ^ 52)%Z with (2 ^ 26 * 2 ^ 26)%Z. apply Z.mul_lt_mono_nonneg; lia. }
    pose proof (PRO _ _ (DIF _ _ A1 A2) (DIF _ _ A1 A2)) as P1. pose proof (PRO _ _ (DIF _ _ B1 B2) (DIF _ _ B1 B2)) as P2.
    assert (forall a, Z.abs a < 2 ^ 26 -> Z.abs a < 2 ^ 53)%Z as W by (intros; lia). assert (forall a, Z.abs a < 2 ^ 52 -> Z.abs a < 2 ^ 53)%Z as W2 by (intros; lia).
    rewrite (exact_rnd fl 0 (i1 - i2) e FL) by (first [apply W, DIF; assumption | lia]). cbn [bind]. rewrite MUL.
    rewrite (exact_rnd fl 7 _ (e + e) FL) by (first [apply W2; exact P1 | lia]). cbn [bind].
    rewrite (exact_rnd fl 0 (j1 - j2) e FL) by (first [apply W, DIF; assumption | lia]). cbn [bind]. rewrite MUL.
    rewrite (exact_rnd fl 8 _ (e + e) FL) by (first [apply W2; exact P2 | lia]). cbn [bind]. rewrite ADD2.
    apply exact_rnd; [exact FL| |lia]. revert P1 P2. generalize ((i1 - i2) * (i1 - i2))%Z ((j1 - j2) * (j1 - j2))%Z. intros. change (2 ^ 53)%Z with (2 * 2 ^ 52)%Z. lia.
  Qed.
  Lemma grid_before p0 a b : g p0 -> g a -> g b -> fpoint_before fl p0 a b = Ok (point_before p0 a b).
  Proof.
    intros. unfold fpoint_before, point_before. rewrite grid_orientation by assumption. cbn [bind]. destruct (Nat.eqb _ 0); [|reflexivity].
    rewrite !grid_dist by assumption. reflexivity.
  Qed.
  Lemma grid_lowest P : (forall p, In p P -> g p) -> P <> [] -> flowest_index fl P = lowest_index P.
  Proof.
    intros G NE. unfold flowest_index, lowest_index. assert (0 < length P)%nat as L by (destruct P; [congruence|cbn; lia]).
    assert (forall k i y, (i + k <= length P)%nat -> (y < length P)%nat ->
      for_up k i (fun i ymin => a <- get P i ;; b <- get P ymin ;; if uy a <? uy b then Ok i
        else d <- rnd fl 0 (uy a - uy b) ;; Ok (if (Qcabs d <? lit_1em9) && (ux a <? ux b) then i else ymin)) y =
      for_up k i (fun i ymin => a <- get P i ;; b <- get P ymin ;;
        Ok (if (uy a <? uy b) || ((Qcabs (uy a - uy b) <? lit_1em9) && (ux a <? ux b)) then i else ymin)) y) as K; [|apply K; lia].
    induction k as [|k IH]; intros i y H1 H2; [reflexivity|]. cbn [for_up].
    rewrite (get_ok P i (V2 0 0)), (get_ok P y (V2 0 0)) by lia. cbn [bind].
    destruct (G (nth i P (V2 0 0)) ltac:(apply nth_In; lia)) as (_ & j1 & _ & B1 & _ & Y1). destruct (G (nth y P (V2 0 0)) ltac:(apply nth_In; lia)) as (_ & j2 & _ & B2 & _ & Y2).
    set (a := nth i P (V2 0 0)) in *. set (b := nth y P (V2 0 0)) in *.
    destruct (uy a <? uy b); cbn [orb bind]; [apply IH; lia|].
    assert (rnd fl 0 (uy a - uy b) = Ok (uy a - uy b)) as ->.
    { rewrite Y1, Y2. change (Qc_of_Z ?z) with (ofZ z). replace (ofZ j1 * p2 e - ofZ j2 * p2 e) with (ofZ (j1 - j2) * p2 e) by (rewrite ofZ_sub; ring).
      apply exact_rnd; [exact FL|lia|lia]. }
    cbn [bind]. destruct (_ && _)%bool; apply IH; lia.
  Qed.
  Lemma grid_far p0 l : g p0 -> (forall p, In p l -> g p) -> fkeep_far fl p0 l = Ok (keep_far p0 l).
  Proof.
    intros G0. induction l as [|p l IH]; intros G; [reflexivity|]. destruct l as [|q l]; [reflexivity|]. cbn [fkeep_far keep_far].
    change (match l with | [] => Ok [q] | q0 :: _ => _ end) with (fkeep_far fl p0 (q :: l)). change (match l with | [] => [q] | q0 :: _ => _ end) with (keep_far p0 (q :: l)).
    rewrite grid_orientation by (first [exact G0 | apply G; cbn; tauto]). cbn [bind]. rewrite IH by (intros x Hx; apply G; right; exact Hx). cbn [bind]. destruct (Nat.eqb _ _); reflexivity.
  Qed.
  Lemma grid_pop p : g p -> forall h, (forall x, In x h -> g x) -> fpop_right fl h p = Ok (pop_right h p).
  Proof.
    intros Gp. induction h as [|b h IH]; intros G; [reflexivity|]. destruct h as [|a h]; [reflexivity|]. cbn [fpop_right pop_right].
    change (match h with | [] => Ok [a] | a0 :: _ => _ end) with (fpop_right fl (a :: h) p). change (match h with | [] => [a] | a0 :: _ => _ end) with (pop_right (a :: h) p).
    rewrite grid_orientation by (first [exact Gp | apply G; cbn; tauto]). cbn [bind]. destruct (negb _); [|reflexivity]. apply IH. intros x Hx. apply G. right. exact Hx.
  Qed.
  Lemma grid_scan : forall rest h, (forall x, In x h -> g x) -> (forall x, In x rest -> g x) -> fscan fl h rest = Ok (scan h rest).
  Proof.
    induction rest as [|p rest IH]; intros h Gh Gr; [reflexivity|]. cbn [fscan]. rewrite grid_pop by (first [exact Gh | apply Gr; left; reflexivity]). cbn [bind].
    rewrite IH; [reflexivity| |intros x Hx; apply Gr; right; exact Hx]. intros x [<-|Hx]; [apply Gr; left; reflexivity|]. apply Gh, (pop_incl p), Hx.
  Qed.
End Grid.

(** ** a sort that compares with the rounded numbers sorts *)
Lemma swo_ext {A} (c c' : A -> A -> bool) l : (forall a b, In a l -> In b l -> c a b = c' a b) -> strict_weak_order c l -> strict_weak_order c' l.
Proof.
  intros E (R & T & W). split; [|split].
  - intros a Ha. rewrite <- E by assumption. auto.
  - intros a b d Ha Hb Hd. rewrite <- !E by assumption. apply T; assumption.
  - intros a b d Ha Hb Hd. rewrite <- !E by assumption. apply W; assumption.
Qed.
Lemma fop_in {A} (R R' : A -> A -> Prop) l : (forall a b, In a l -> In b l -> R a b -> R' a b) -> ForallOrdPairs R l -> ForallOrdPairs R' l.
Proof.
  induction l as [|x l IH]; intros E H; [constructor|]. inversion H as [|? ? H1 H2]; subst. constructor.
  - apply Forall_forall. intros y Hy. apply E; [left; reflexivity|right; exact Hy|]. exact (proj1 (Forall_forall _ _) H1 y Hy).
  - apply IH; [|exact H2]. intros a b Ha Hb. apply E; right; assumption.
Qed.
Lemma sorts_other {A} (sort : (A -> A -> bool) -> list A -> list A) (f c : A -> A -> bool) (l : list A) : sorts sort -> (forall a b, In a l -> In b l -> f a b = c a b) ->
  exists sort', sorts sort' /\ sort' c l = sort f l.
Proof.
  intros S E.
  set (agree := fun (c : A -> A -> bool) (l : list A) => forallb (fun a => forallb (fun b => Bool.eqb (f a b) (c a b)) l) l).
  assert (forall c l, agree c l = true <-> forall a b, In a l -> In b l -> f a b = c a b) as AG.
  { intros c0 l0. unfold agree. rewrite forallb_forall. split.
    - intros H a b Ha Hb. specialize (H a Ha). rewrite forallb_forall in H. apply eqb_prop, H, Hb.
    - intros H a Ha. apply forallb_forall. intros b Hb. rewrite (H a b Ha Hb). apply eqb_reflx. }
  exists (fun c l => if agree c l then sort f l else sort c l). split.
  - intros c0 l0 W. destruct (agree c0 l0) eqn:G; [|apply S, W]. rewrite AG in G.
    destruct (S f l0 (swo_ext c0 f l0 (fun a b Ha Hb => eq_sym (G a b Ha Hb)) W)) as (PM & FO). split; [exact PM|].
    apply (fop_in (fun a b => f b a = false)); [|exact FO]. intros a b Ha Hb <-. symmetry. apply G; apply (Permutation_in _ PM); assumption.
  - rewrite (proj2 (AG c l) E). reflexivity.
Qed.

Lemma grid_same fl e sort P : in_doubles fl -> (-500 <= e <= 480)%Z -> (forall p, In p P -> on_grid e 25 p) -> sorts sort -> (3 <= length P)%nat ->
  clear_position lit_1em9 P ->
  exists sort', sorts sort' /\ fconvex_hull2d fl sort P = convex_hull2d sort' P.
Proof.
  intros FL HE G SO L (CT & CY). assert (P <> []) as NE by (destruct P; [cbn in L; lia|discriminate]).
  destruct (lowest_ok P NE CY) as (k & E & Hk & LO). destruct (swap_front_ok P k Hk) as (rest & E2 & PM). set (p0 := pt P k) in *.
  assert (on_grid e 25 p0) as G0 by (apply G, nth_In, Hk). assert (forall x, In x rest -> on_grid e 25 x) as GR by (intros x Hx; apply G, (Permutation_in _ PM); right; exact Hx).
  set (fc := fun a b => match fpoint_before fl p0 a b with Ok c => c | _ => false end).
  assert (forall a b, In a rest -> In b rest -> fc a b = point_before p0 a b) as EC by (intros a b Ha Hb; unfold fc; rewrite (grid_before fl e FL HE) by auto; reflexivity).
  destruct (sorts_other sort fc (point_before p0) rest SO EC) as (sort' & SO' & ES). exists sort'. split; [exact SO'|].
  assert (Permutation (sort fc rest) rest) as PE.
  { apply SO. apply (swo_ext (point_before p0)); [intros a b Ha Hb; symmetry; auto|]. assert (incl rest P) as IR by (intros x Hx; apply (Permutation_in _ PM); right; exact Hx).
    assert (In p0 P) as I0 by (apply nth_In; exact Hk). apply before_order; [intros a b A B; apply CT; auto|].
    intros a A. destruct (LO a (IR a A)) as [H|(H1 & H2)]; [right; left; exact H|]. destruct (Qcle_lt_or_eq _ _ H2) as [H|H]; [right; right; split; [exact H1|exact H]|]. left. apply v2_eq; congruence. }
  unfold fconvex_hull2d, convex_hull2d. destruct (Nat.ltb_spec (length P) 3) as [C|_]; [lia|].
  rewrite (grid_lowest fl e FL HE P G NE), E. cbn [bind]. rewrite E2. cbn [bind]. rewrite ES.
  unfold fsorted. rewrite (mapM_map _ (fun a => map (point_before p0 a) rest)).
  2:{ intros a Ha. apply mapM_map. intros b Hb. apply (grid_before fl e FL HE); auto. }
  cbn [bind]. fold fc. set (s := sort fc rest).
  assert (forall x, In x s -> on_grid e 25 x) as GS by (intros x Hx; apply GR, (Permutation_in _ PE), Hx).
  rewrite (grid_far fl e FL HE p0 s G0 GS). cbn [bind].
  pose proof (keep_far_incl p0 s) as KI. destruct (keep_far p0 s) as [|p1 [|p2 more]]; [reflexivity|reflexivity|].
  rewrite (grid_scan fl e FL HE); [reflexivity| |].
  - intros x [<-|[<-|[<-|[]]]]; [apply GS, KI; right; left; reflexivity|apply GS, KI; left; reflexivity|exact G0].
  - intros x Hx. apply GS, KI. right. right. exact Hx.
Qed.

Lemma grid_clear_position e P : (-14 <= e <= 480)%Z -> (forall p, In p P -> on_grid e 25 p) -> clear_position lit_1em9 P.
Proof.
  intros HE G.
  assert (forall z x, (-28 <= x)%Z -> ofZ z * p2 x = 0 \/ lit_1em9 <= Qcabs (ofZ z * p2 x)) as K.
  { intros z x Hx. destruct (Z.eq_dec z 0) as [->|NZ]; [left; change (ofZ 0) with 0; ring|right].
    rewrite Qcabs_mul, ofZ_abs by apply lt_le, p2_pos. pose proof (ofZ_le 1 (Z.abs z) ltac:(lia)) as O. change (ofZ 1) with 1 in O. pose proof (p2_pos x) as PX.
    pose proof (p2_mono (-28) x Hx) as M. assert (lit_1em9 <= p2 (-28)) as Q by (vm_compute; discriminate).
    assert (0 <= (ofZ (Z.abs z) - 1) * p2 x) by (apply mul_nonneg; [qc_lra|apply lt_le, PX]). qc_lra. }
  assert (forall a b, ofZ a * p2 e - ofZ b * p2 e = ofZ (a - b) * p2 e) as SUB by (intros; rewrite ofZ_sub; ring).
  split.
  - intros a b c A B C. destruct (G a A) as (i1 & j1 & _ & _ & X1 & Y1). destruct (G b B) as (i2 & j2 & _ & _ & X2 & Y2). destruct (G c C) as (i3 & j3 & _ & _ & X3 & Y3).
    change (Qc_of_Z ?z) with (ofZ z) in *. unfold turn. rewrite X1, Y1, X2, Y2, X3, Y3, !SUB.
    replace (ofZ (i2 - i1) * p2 e * (ofZ (j3 - j1) * p2 e) - ofZ (j2 - j1) * p2 e * (ofZ (i3 - i1) * p2 e)) with (ofZ ((i2 - i1) * (j3 - j1) - (j2 - j1) * (i3 - i1)) * p2 (e + e)) by (rewrite ofZ_sub, !ofZ_mul, p2_add; ring).
    apply K. lia.
  - intros a b A B. destruct (G a A) as (i1 & j1 & _ & _ & X1 & Y1). destruct (G b B) as (i2 & j2 & _ & _ & X2 & Y2).
    change (Qc_of_Z ?z) with (ofZ z) in *. destruct (K (j1 - j2)%Z e ltac:(lia)) as [H|H]; rewrite <- SUB, <- Y1, <- Y2 in H; [left|right; exact H]. qc_lra.
Qed.

Lemma doubles_hull fl e sort P : in_doubles fl -> (-14 <= e <= 480)%Z -> (forall p, In p P -> on_grid e 25 p) -> sorts sort ->
  (3 <= length P)%nat -> not_collinear P ->
  exists R, fconvex_hull2d fl sort P = Ok R /\ convex_ccw R /\ incl R P /\ forall p, In p P -> in_hull R p.
Proof.
  intros FL HE G SO L NC. pose proof (grid_clear_position e P HE G) as CL. destruct (grid_same fl e sort P FL ltac:(lia) G SO L CL) as (sort' & SO' & ->).
  apply hull_clear; assumption.
Qed.

(** ** whatever the rounding, vertices of the result are points of the input *)
Lemma ffar_incl fl p0 : forall l m, fkeep_far fl p0 l = Ok m -> incl m l.
Proof.
  induction l as [|p l IH]; intros m E; [injection E as <-; apply incl_refl|]. destruct l as [|q l]; [injection E as <-; apply incl_refl|]. cbn [fkeep_far] in E.
  change (match l with | [] => Ok [q] | q0 :: _ => _ end) with (fkeep_far fl p0 (q :: l)) in E.
  apply bind_inv in E as (o & _ & E). apply bind_inv in E as (m' & E1 & E). injection E as <-. apply IH in E1. destruct (Nat.eqb o 0); [apply incl_tl, E1|].
  intros x [->|H]; [left; reflexivity|right; apply E1, H].
Qed.
Lemma fpop_incl fl p : forall h m, fpop_right fl h p = Ok m -> incl m h.
Proof.
  induction h as [|b h IH]; intros m E; [injection E as <-; apply incl_refl|]. destruct h as [|a h]; [injection E as <-; apply incl_refl|]. cbn [fpop_right] in E.
  change (match h with | [] => Ok [a] | a0 :: _ => _ end) with (fpop_right fl (a :: h) p) in E.
  apply bind_inv in E as (o & _ & E). destruct (negb _); [apply incl_tl, IH, E|injection E as <-; apply incl_refl].
Qed.
Lemma fscan_incl fl : forall rest h m, fscan fl h rest = Ok m -> incl m (h ++ rest).
Proof.
  induction rest as [|p rest IH]; intros h m E; cbn [fscan] in E; [injection E as <-; rewrite app_nil_r; apply incl_refl|].
  apply bind_inv in E as (h' & E1 & E). apply IH in E. apply fpop_incl in E1. intros x Hx. apply E in Hx. apply in_app_or in Hx. apply in_or_app.
  destruct Hx as [[->|Hx]|Hx]; [right; left; reflexivity|left; apply E1, Hx|right; right; exact Hx].
Qed.
Lemma flowest_lt fl P k : P <> [] -> flowest_index fl P = Ok k -> (k < length P)%nat.
Proof.
  intros NE. assert (0 < length P)%nat as L by (destruct P; [congruence|cbn; lia]). unfold flowest_index.
  assert (forall c i y, (i + c <= length P)%nat -> (y < length P)%nat -> for_up c i (fun i ymin => a <- get P i ;; b <- get P ymin ;; if uy a <? uy b then Ok i
        else d <- rnd fl 0 (uy a - uy b) ;; Ok (if (Qcabs d <? lit_1em9) && (ux a <? ux b) then i else ymin)) y = Ok k -> (k < length P)%nat) as K; [|apply K; lia].
  induction c as [|c IH]; intros i y H1 H2 E; cbn [for_up] in E; [injection E as <-; exact H2|].
  apply bind_inv in E as (y' & E1 & E). apply IH in E; [exact E|lia|].
  apply bind_inv in E1 as (a & _ & E1). apply bind_inv in E1 as (b & _ & E1). destruct (uy a <? uy b); [injection E1 as <-; lia|].
  apply bind_inv in E1 as (d & _ & E1). injection E1 as <-. destruct (_ && _)%bool; lia.
Qed.
Lemma fhull_vertices fl sort P R : (forall cmp l, Permutation (sort cmp l) l) -> fconvex_hull2d fl sort P = Ok R -> incl R P.
Proof.
  intros PE E. unfold fconvex_hull2d in E. destruct (Nat.ltb_spec (length P) 3) as [L|L]; [injection E as <-; apply incl_refl|].
  apply bind_inv in E as (k & Ek & E). apply flowest_lt in Ek; [|destruct P; [cbn in L; lia|discriminate]].
  destruct (swap_front_ok P k Ek) as (rest & E2 & PM). rewrite E2 in E. cbn [bind] in E. set (p0 := pt P k) in *.
  apply bind_inv in E as (s & Es & E). unfold fsorted in Es. apply bind_inv in Es as (ps & _ & Es). injection Es as Es. apply bind_inv in E as (l & El & E). apply ffar_incl in El.
  assert (incl l P) as IL by (intros x Hx; apply El in Hx; rewrite <- Es in Hx; apply (Permutation_in _ PM); right; exact (Permutation_in _ (PE _ _) Hx)).
  assert (In p0 P) as I0 by (apply (Permutation_in _ PM); left; reflexivity).
  destruct l as [|p1 [|p2 more]]; [injection E as <-; intros x []|injection E as <-; intros x []|]. apply bind_inv in E as (h & Eh & E). injection E as <-. apply fscan_incl in Eh.
  intros x Hx. apply in_rev in Hx. apply Eh in Hx. destruct Hx as [<-|[<-|[<-|Hx]]]; [apply IL; right; left; reflexivity|apply IL; left; reflexivity|exact I0|apply IL; right; right; exact Hx].
Qed.

(** ** without rounding the model is that of ModelPolygon *)
Definition ext_sort {A} (sort : (A -> A -> bool) -> list A -> list A) : Prop := forall c c' l, (forall a b, c a b = c' a b) -> sort c l = sort c' l.
Lemma unrounded sort P : ext_sort sort -> fconvex_hull2d (fun _ => Some) sort P = convex_hull2d sort P.
Proof.
  intros ES. set (fl := fun (_ : nat) (x : Qc) => Some x).
  assert (forall p q r, forientation fl p q r = Ok (orientation p q r)) as OR by reflexivity.
  assert (forall p0 a b, fpoint_before fl p0 a b = Ok (point_before p0 a b)) as BE.
  { intros. unfold fpoint_before, point_before. rewrite OR. cbn [bind]. destruct (Nat.eqb _ 0); reflexivity. }
  assert (flowest_index fl P = lowest_index P) as LI.
  { unfold flowest_index, lowest_index.
    assert (forall n i y, for_up n i (fun i ymin => a <- get P i ;; b <- get P ymin ;; if uy a <? uy b then Ok i
        else d <- rnd fl 0 (uy a - uy b) ;; Ok (if (Qcabs d <? lit_1em9) && (ux a <? ux b) then i else ymin)) y =
      for_up n i (fun i ymin => a <- get P i ;; b <- get P ymin ;;
        Ok (if (uy a <? uy b) || ((Qcabs (uy a - uy b) <? lit_1em9) && (ux a <? ux b)) then i else ymin)) y) as K; [|apply K].
    induction n as [|n IH]; intros i y; [reflexivity|]. cbn [for_up].
    destruct (get P i) as [a| |]; [|reflexivity..]. cbn [bind]. destruct (get P y) as [b| |]; [|reflexivity..]. cbn [bind]. destruct (uy a <? uy b); cbn [orb bind rnd fl]; apply IH. }
  assert (forall p0 l, fkeep_far fl p0 l = Ok (keep_far p0 l)) as KF.
  { intros p0. induction l as [|p l IH]; [reflexivity|]. destruct l as [|q l]; [reflexivity|]. cbn [fkeep_far keep_far].
    change (match l with | [] => Ok [q] | q0 :: _ => _ end) with (fkeep_far fl p0 (q :: l)). change (match l with | [] => [q] | q0 :: _ => _ end) with (keep_far p0 (q :: l)).
    rewrite OR, IH. cbn [bind]. destruct (Nat.eqb _ _); reflexivity. }
  assert (forall p h, fpop_right fl h p = Ok (pop_right h p)) as PO.
  { intros p. induction h as [|b h IH]; [reflexivity|]. destruct h as [|a h]; [reflexivity|]. cbn [fpop_right pop_right].
    change (match h with | [] => Ok [a] | a0 :: _ => _ end) with (fpop_right fl (a :: h) p). change (match h with | [] => [a] | a0 :: _ => _ end) with (pop_right (a :: h) p).
    rewrite OR. cbn [bind]. destruct (negb _); [exact IH|reflexivity]. }
  assert (forall rest h, fscan fl h rest = Ok (scan h rest)) as SC.
  { induction rest as [|p rest IH]; intros h; [reflexivity|]. cbn [fscan]. rewrite PO. cbn [bind]. apply IH. }
  unfold fconvex_hull2d, convex_hull2d. destruct (Nat.ltb _ _); [reflexivity|]. change (fun _ : nat => Some) with fl. rewrite LI.
  destruct (lowest_index P) as [k| |]; [|reflexivity..]. cbn [bind]. destruct (swap_front P k) as [[|p0 rest]| |]; [reflexivity| |reflexivity..]. cbn [bind].
  unfold fsorted. rewrite (mapM_map _ (fun a => map (point_before p0 a) rest)) by (intros a _; apply mapM_map; intros b _; apply BE). cbn [bind].
  rewrite (ES _ (point_before p0)) by (intros a b; rewrite BE; reflexivity). rewrite KF. cbn [bind].
  destruct (keep_far p0 _) as [|p1 [|p2 more]]; [reflexivity|reflexivity|]. rewrite SC. reflexivity.
Qed.
