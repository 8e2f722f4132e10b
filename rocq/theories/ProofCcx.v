(** Proofs about curve-curve intersection. *)
From Coq Require Import List ZArith Lia QArith Qcanon Lqa Bool.
From Verif Require Import Base BaseFacts LoopFacts ModelVec ModelAabb ModelNurbs ModelCcx SpecAabb SpecNurbs SpecCurve SpecCcx
  ProofAabb ProofBspline ProofNurbs ProofInsertion ProofInsertKnot ProofCurve ProofSplit ProofNurbsTop ProofDecompose ProofMinimize.
Import ListNotations.
Open Scope Qc_scope.

(** ** What a successful split says, whatever the curve *)
Lemma fold_min_le l : forall a, fold_left Qcmin l a <= a /\ forall x, In x l -> fold_left Qcmin l a <= x.
Proof.
  induction l as [|y l IH]; intros a; cbn [fold_left]; [split; [apply Qcle_refl|intros x []]|].
  destruct (IH (Qcmin a y)) as [A B]. pose proof (Qcmin_le_l a y) as M1. pose proof (Qcmin_le_r a y) as M2.
  split; [exact (Qcle_trans _ _ _ A M1)|]. intros x [<-|I]; [exact (Qcle_trans _ _ _ A M2)|apply B; exact I].
Qed.
Lemma fold_max_le l : forall a, a <= fold_left Qcmax l a /\ forall x, In x l -> x <= fold_left Qcmax l a.
Proof.
  induction l as [|y l IH]; intros a; cbn [fold_left]; [split; [apply Qcle_refl|intros x []]|].
  destruct (IH (Qcmax a y)) as [A B]. pose proof (Qcmax_ge_l a y) as M1. pose proof (Qcmax_ge_r a y) as M2.
  split; [exact (Qcle_trans _ _ _ M1 A)|]. intros x [<-|I]; [exact (Qcle_trans _ _ _ M2 A)|apply B; exact I].
Qed.
Lemma fold_min_in l : forall a, In (fold_left Qcmin l a) (a :: l).
Proof.
  induction l as [|y l IH]; intros a; cbn [fold_left]; [left; reflexivity|].
  destruct (IH (Qcmin a y)) as [E|I]; [|right; right; exact I].
  rewrite <- E. destruct (Qcmin_cases a y) as [->| ->]; [left|right; left]; reflexivity.
Qed.
Lemma fold_max_in l : forall a, In (fold_left Qcmax l a) (a :: l).
Proof.
  induction l as [|y l IH]; intros a; cbn [fold_left]; [left; reflexivity|].
  destruct (IH (Qcmax a y)) as [E|I]; [|right; right; exact I].
  rewrite <- E. destruct (Qcmax_cases a y) as [->| ->]; [left|right; left]; reflexivity.
Qed.

Lemma update_interval_inv c c' : update_interval c = Ok c' ->
  nc_knots c' = nc_knots c /\ nc_cps c' = nc_cps c /\ nc_degree c' = nc_degree c /\ interval_covers c' /\
  In (fst (nc_interval c')) (nc_knots c) /\ In (snd (nc_interval c')) (nc_knots c).
Proof.
  unfold update_interval. destruct (nc_knots c) as [|a l] eqn:E; [discriminate|]. cbn [min_of max_of bind]. intros H.
  assert (c' = nc_set_interval c (fold_left Qcmin l a, fold_left Qcmax l a)) as -> by congruence.
  cbn [nc_set_interval nc_knots nc_interval fst snd nc_cps nc_degree]. split; [exact E|]. split; [reflexivity|]. split; [reflexivity|].
  destruct (fold_min_le l a) as [M1 M2]. destruct (fold_max_le l a) as [X1 X2].
  split; [|split; [apply fold_min_in|apply fold_max_in]].
  split; [cbn [nc_set_interval nc_interval fst snd]; qc_lra|]. cbn [nc_set_interval nc_knots nc_interval fst snd].
  rewrite E. intros x [<-|I]; split; auto.
Qed.

Lemma rebuild_inv c c' : rebuildAABB c = Ok c' -> nc_knots c' = nc_knots c /\ nc_interval c' = nc_interval c /\ nc_cps c' = nc_cps c /\ nc_degree c' = nc_degree c.
Proof.
  unfold rebuildAABB. destruct (nc_cps c) as [|q l] eqn:E; [discriminate|]. destruct (to_vec3 q); try discriminate. cbn [bind].
  destruct (mapM to_vec3 (q :: l)); try discriminate. cbn [bind]. intros H. 
  match type of H with Ok ?x = _ => assert (c' = x) as -> by congruence end. cbn. rewrite E. auto.
Qed.

Lemma make_knots_inv cps p kv per c : nc_make_knots cps p kv per = Ok c ->
  nc_knots c = kv /\ interval_covers c /\ In (fst (nc_interval c)) kv /\ In (snd (nc_interval c)) kv /\ nc_cps c = cps /\ nc_degree c = p.
Proof.
  unfold nc_make_knots. destruct (update_interval _) as [c0| |] eqn:E; try discriminate. cbn [bind]. intros H.
  apply update_interval_inv in E. cbn [nc_knots nc_cps nc_degree] in E. destruct E as (A1 & A2 & A3 & A4 & A5 & A6).
  apply rebuild_inv in H. destruct H as (B1 & B2 & B3 & B4).
  split; [congruence|]. split; [|rewrite B2; repeat split; congruence].
  unfold interval_covers in *. rewrite B1, B2. exact A4.
Qed.

Lemma for_up_pres {S} (P : S -> Prop) (body : nat -> S -> res S) n : forall start s s',
  (forall i a b, P a -> body i a = Ok b -> P b) -> P s -> for_up n start body s = Ok s' -> P s'.
Proof.
  induction n as [|n IH]; intros start s s' H Hs; cbn [for_up]; [intros [= <-]; exact Hs|].
  destruct (body start s) as [a| |] eqn:E; try discriminate. cbn [bind]. apply IH; eauto.
Qed.

Lemma insertion_kv_in knots u span r kv x : knot_insertion_kv knots u span r = Ok kv -> In x kv -> x = u \/ In x knots.
Proof.
  intros H. revert x. refine (for_up_pres (fun l => forall x, In x l -> x = u \/ In x knots) _ _ _ _ _ _ _ H); [|auto].
  intros _ a b Ha Hb y Hy. unfold vec_insert in Hb. destruct (Nat.leb _ _); [|discriminate].
  assert (b = firstn (span + 1) a ++ u :: skipn (span + 1) a) as -> by congruence.
  apply in_app_or in Hy. destruct Hy as [Hy|[<-|Hy]]; [|left; reflexivity|]; apply Ha; rewrite <- (firstn_skipn (span + 1) a); apply in_or_app; auto.
Qed.

Lemma insert_knot_in c t r c' x : insert_knot c t r = Ok c' -> In x (nc_knots c') -> x = t \/ In x (nc_knots c).
Proof.
  unfold insert_knot. destruct (length (nc_cps c)); [discriminate|].
  destruct (find_span _ _ _ _) as [sp| |]; try discriminate. cbn [bind].
  destruct (knot_insertion_kv _ _ _ _) as [kv| |] eqn:E; try discriminate. cbn [bind].
  destruct (for_up _ _ _ _); try discriminate. cbn [bind].
  destruct (knot_insertion _ _ _ _ _ _ _ _); try discriminate. cbn [bind].
  intros H. apply update_interval_inv in H. cbn [nc_set_knots nc_knots] in H. destruct H as (-> & _).
  intros Hx. eapply insertion_kv_in; eassumption.
Qed.

Lemma sub_vec_in {A} (l l' : list A) f e x : sub_vec l f e = Ok l' -> In x l' -> In x l.
Proof.
  unfold sub_vec. destruct (_ && _); [|discriminate]. intros H. match type of H with Ok ?y = _ => assert (l' = y) as -> by congruence end.
  intros I. rewrite <- (firstn_skipn (Z.to_nat f) l). apply in_or_app. right.
  rewrite <- (firstn_skipn (Z.to_nat (e - f)) (skipn (Z.to_nat f) l)). apply in_or_app. left. exact I.
Qed.

Lemma split_inv c t a b : nc_split c t false = Ok (a, b) ->
  fst (nc_interval c) < t /\ t < snd (nc_interval c) /\ lit_1em12 < t - fst (nc_interval c) /\ lit_1em12 < snd (nc_interval c) - t /\
  exists cp1 cp2 kv1 kv2, nc_make_knots cp1 (nc_degree c) kv1 false = Ok a /\ nc_make_knots cp2 (nc_degree c) kv2 false = Ok b /\
    (forall x, In x kv1 -> x = t \/ In x (nc_knots c)) /\ (forall x, In x kv2 -> x = t \/ In x (nc_knots c)).
Proof.
  unfold nc_split. destruct (nc_interval c) as [l h]. cbn [fst snd].
  destruct (_ || _) eqn:EO; [discriminate|]. rewrite !orb_false_iff in EO. destruct EO as (((O1 & O2) & O3) & O4).
  destruct (find_span _ _ _ _) as [sp| |]; try discriminate. cbn [bind].
  destruct (Nat.ltb _ _); [discriminate|].
  destruct (nc_make_knots (nc_cps c) _ _ _) as [t0| |] eqn:E0; try discriminate. cbn [bind].
  destruct (update_interval t0) as [t1| |] eqn:E1; try discriminate. cbn [bind].
  destruct (insert_knot t1 t _) as [t2| |] eqn:E2; try discriminate. cbn [bind].
  destruct (find_span _ _ _ _) as [sp2| |]; try discriminate. cbn [bind].
  match goal with |- context [sub_vec (nc_knots t2) ?x ?y] => destruct (sub_vec (nc_knots t2) x y) as [k1| |] eqn:K1; try discriminate; cbn [bind] end.
  match goal with |- context [sub_vec (nc_knots t2) ?x ?y] => destruct (sub_vec (nc_knots t2) x y) as [k2| |] eqn:K2; try discriminate; cbn [bind] end.
  match goal with |- context [sub_vec (nc_cps t2) ?x ?y] => destruct (sub_vec (nc_cps t2) x y) as [p1| |]; try discriminate; cbn [bind] end.
  match goal with |- context [sub_vec (nc_cps t2) ?x ?y] => destruct (sub_vec (nc_cps t2) x y) as [p2| |]; try discriminate; cbn [bind] end.
  match goal with |- context [nc_make_knots p1 ?x ?y ?z] => destruct (nc_make_knots p1 x y z) as [a'| |] eqn:A; try discriminate; cbn [bind] end.
  match goal with |- context [nc_make_knots p2 ?x ?y ?z] => destruct (nc_make_knots p2 x y z) as [b'| |] eqn:B; try discriminate; cbn [bind] end.
  intros H.
  assert (a = a' /\ b = b') as [-> ->] by (split; congruence). clear H.
  assert (l < t) as T1 by (apply Qcnot_le_lt; intros L; apply Qcleb_iff in L; congruence).
  assert (t < h) as T2 by (apply Qcnot_le_lt; intros L; apply Qcleb_iff in L; congruence).
  assert (lit_1em12 < Qcabs (t - l)) as T3 by (apply Qcnot_le_lt; intros L; apply Qcleb_iff in L; congruence).
  assert (lit_1em12 < Qcabs (t - h)) as T4 by (apply Qcnot_le_lt; intros L; apply Qcleb_iff in L; congruence).
  split; [exact T1|]. split; [exact T2|].
  split. { destruct (Qcabs_cases (t - l)) as [[P Q]|[P Q]]; rewrite Q in T3; qc_lra. }
  split. { destruct (Qcabs_cases (t - h)) as [[P Q]|[P Q]]; rewrite Q in T4; qc_lra. }
  assert (forall x, In x (nc_knots t2) -> x = t \/ In x (nc_knots c)) as KX.
  { intros x Hx. destruct (insert_knot_in _ _ _ _ _ E2 Hx) as [->|I]; [left; reflexivity|right].
    apply update_interval_inv in E1. destruct E1 as (R1 & _). apply make_knots_inv in E0. destruct E0 as (R0 & _). rewrite R1, R0 in I. exact I. }
  exists p1, p2, (k1 ++ [t]), (repeat t (nc_degree c + 1) ++ k2). split; [exact A|]. split; [exact B|]. split; intros x Hx.
  - apply in_app_or in Hx. destruct Hx as [Hx|[<-|[]]]; [|left; reflexivity]. apply KX. exact (sub_vec_in _ _ _ _ _ K1 Hx).
  - apply in_app_or in Hx. destruct Hx as [Hx|Hx]; [left; eapply repeat_spec; exact Hx|]. apply KX. exact (sub_vec_in _ _ _ _ _ K2 Hx).
Qed.

Definition subinterval (a c : ncurve) : Prop :=
  fst (nc_interval c) <= fst (nc_interval a) /\ snd (nc_interval a) <= snd (nc_interval c).

Lemma split_intervals c t a b : interval_covers c -> nc_split c t false = Ok (a, b) ->
  interval_covers a /\ interval_covers b /\ subinterval a c /\ subinterval b c.
Proof.
  intros [_ C] H. apply split_inv in H. destruct H as (T1 & T2 & _ & _ & p1 & p2 & k1 & k2 & A & B & I1 & I2).
  apply make_knots_inv in A. apply make_knots_inv in B. destruct A as (_ & A1 & A2 & A3 & _). destruct B as (_ & B1 & B2 & B3 & _).
  assert (forall x, x = t \/ In x (nc_knots c) -> fst (nc_interval c) <= x /\ x <= snd (nc_interval c)) as K.
  { intros x [->|I]; [split; apply Qclt_le_weak; assumption|apply C; exact I]. }
  split; [exact A1|]. split; [exact B1|]. split; split.
  - apply K, I1, A2. - apply K, I1, A3. - apply K, I2, B2. - apply K, I2, B3.
Qed.

(** ** The domain *)
Section Ccx.
Variable len : vec3 -> option Qc.

Lemma ccx_eq f c1 c2 tol result : ccx len (S f) c1 c2 tol result =
      if aabb_intersects (nc_aabb c1) (nc_aabb c2) then
        if ccx_small len (nc_aabb c1) tol && ccx_small len (nc_aabb c2) tol then
          Some (Ok (ccx_push tol result (qc 1 2 * (fst (nc_interval c1) + snd (nc_interval c1))) (qc 1 2 * (fst (nc_interval c2) + snd (nc_interval c2)))))
        else
          match nc_split c1 ((snd (nc_interval c1) - fst (nc_interval c1)) * qc 1 2 + fst (nc_interval c1)) false with
          | Ok (a1, b1) =>
              match nc_split c2 ((snd (nc_interval c2) - fst (nc_interval c2)) * qc 1 2 + fst (nc_interval c2)) false with
              | Ok (a2, b2) =>
                  ccx_then (ccx len f a1 a2 tol result) (fun r =>
                  ccx_then (ccx len f b1 b2 tol r) (fun r =>
                  ccx_then (ccx len f a1 b2 tol r) (fun r =>
                  ccx len f b1 a2 tol r)))
              | Throw e => Some (Throw e)
              | UB => Some UB
              end
          | Throw e => Some (Throw e)
          | UB => Some UB
          end
      else Some (Ok result).
Proof. cbn [ccx]. destruct (nc_interval c1), (nc_interval c2). reflexivity. Qed.

Lemma push_cases tol result f s : ccx_push tol result f s = result ++ [(f, s)] \/
  (ccx_push tol result f s = result /\ exists f' s', In (f', s') result /\ Qcabs (f' - f) <= tol /\ Qcabs (s' - s) <= tol).
Proof.
  unfold ccx_push. destruct (rev result) as [|(f', s') l] eqn:E; [left; reflexivity|].
  destruct (_ && _) eqn:B; [|left; reflexivity]. right. split; [reflexivity|]. exists f', s'.
  rewrite andb_true_iff, !Qcleb_iff in B. split; [|exact B]. apply in_rev. rewrite E. left. reflexivity.
Qed.

(** the shape of the recursion: either nothing or a leaf, or four calls *)
Lemma ccx_cases f c1 c2 tol result out : ccx len (S f) c1 c2 tol result = Some (Ok out) ->
  (aabb_intersects (nc_aabb c1) (nc_aabb c2) = false /\ out = result) \/
  (aabb_intersects (nc_aabb c1) (nc_aabb c2) = true /\ ccx_small len (nc_aabb c1) tol = true /\ ccx_small len (nc_aabb c2) tol = true /\
   out = ccx_push tol result (qc 1 2 * (fst (nc_interval c1) + snd (nc_interval c1))) (qc 1 2 * (fst (nc_interval c2) + snd (nc_interval c2)))) \/
  (aabb_intersects (nc_aabb c1) (nc_aabb c2) = true /\ ccx_small len (nc_aabb c1) tol && ccx_small len (nc_aabb c2) tol = false /\
   exists a1 b1 a2 b2 r1 r2 r3,
   nc_split c1 ((snd (nc_interval c1) - fst (nc_interval c1)) * qc 1 2 + fst (nc_interval c1)) false = Ok (a1, b1) /\
   nc_split c2 ((snd (nc_interval c2) - fst (nc_interval c2)) * qc 1 2 + fst (nc_interval c2)) false = Ok (a2, b2) /\
   ccx len f a1 a2 tol result = Some (Ok r1) /\ ccx len f b1 b2 tol r1 = Some (Ok r2) /\
   ccx len f a1 b2 tol r2 = Some (Ok r3) /\ ccx len f b1 a2 tol r3 = Some (Ok out)).
Proof.
  rewrite ccx_eq. destruct (aabb_intersects _ _); [|intros H; left; split; [reflexivity|congruence]].
  destruct (ccx_small len (nc_aabb c1) tol) eqn:S1; destruct (ccx_small len (nc_aabb c2) tol) eqn:S2; cbn [andb];
    try (intros H; right; left; repeat (split; [reflexivity|]); congruence);
  (destruct (nc_split c1 _ false) as [(a1, b1)| |]; try discriminate;
   destruct (nc_split c2 _ false) as [(a2, b2)| |]; try discriminate;
   intros H; right; right; split; [reflexivity|]; split; [reflexivity|]; exists a1, b1, a2, b2; unfold ccx_then in H;
   destruct (ccx len f a1 a2 tol result) as [[r1| |]|] eqn:R1; try discriminate;
   destruct (ccx len f b1 b2 tol r1) as [[r2| |]|] eqn:R2; try discriminate;
   destruct (ccx len f a1 b2 tol r2) as [[r3| |]|] eqn:R3; try discriminate;
   exists r1, r2, r3; repeat (split; [assumption || reflexivity|]); exact H).
Qed.

Lemma mid_in a b : a <= b -> a <= qc 1 2 * (a + b) /\ qc 1 2 * (a + b) <= b.
Proof. intros H. split; qc_lra. Qed.

Definition midpoint (c : ncurve) : Qc := (snd (nc_interval c) - fst (nc_interval c)) * qc 1 2 + fst (nc_interval c).
Definition middle (c : ncurve) : Qc := qc 1 2 * (fst (nc_interval c) + snd (nc_interval c)).
Definition closed_split (J : ncurve -> Prop) : Prop := forall c a b, J c -> nc_split c (midpoint c) false = Ok (a, b) -> J a /\ J b.

(** a property of all new pairs, from a property of the pieces *)
Lemma ccx_new (J1 J2 : ncurve -> Prop) (P : Qc -> Qc -> Prop) tol : closed_split J1 -> closed_split J2 ->
  (forall c1 c2, J1 c1 -> J2 c2 -> aabb_intersects (nc_aabb c1) (nc_aabb c2) = true ->
     ccx_small len (nc_aabb c1) tol = true -> ccx_small len (nc_aabb c2) tol = true -> P (middle c1) (middle c2)) ->
  forall fuel c1 c2 result out, J1 c1 -> J2 c2 -> ccx len fuel c1 c2 tol result = Some (Ok out) ->
  exists new, out = result ++ new /\ forall s t, In (s, t) new -> P s t.
Proof.
  intros CJ1 CJ2 HP. induction fuel as [|f IH]; intros c1 c2 result out V1 V2 H; [discriminate|].
  apply ccx_cases in H. destruct H as [(_ & ->)|[(X & S1 & S2 & ->)|(_ & _ & a1 & b1 & a2 & b2 & r1 & r2 & r3 & S1 & S2 & H1 & H2 & H3 & H4)]].
  - exists []. split; [symmetry; apply app_nil_r|intros s t []].
  - destruct (push_cases tol result (middle c1) (middle c2)) as [E|[E _]].
    + exists [(middle c1, middle c2)]. split; [exact E|]. intros s t [I|[]].
      assert (s = middle c1 /\ t = middle c2) as [-> ->] by (split; congruence). apply HP; assumption.
    + exists []. split; [rewrite app_nil_r; exact E|intros s t []].
  - destruct (CJ1 _ _ _ V1 S1) as [A1 B1]. destruct (CJ2 _ _ _ V2 S2) as [A2 B2].
    destruct (IH _ _ _ _ A1 A2 H1) as (n1 & -> & P1). destruct (IH _ _ _ _ B1 B2 H2) as (n2 & -> & P2).
    destruct (IH _ _ _ _ A1 B2 H3) as (n3 & -> & P3). destruct (IH _ _ _ _ B1 A2 H4) as (n4 & -> & P4).
    exists (n1 ++ n2 ++ n3 ++ n4). split; [rewrite <- !app_assoc; reflexivity|].
    intros s t I. rewrite !in_app_iff in I. destruct I as [I|[I|[I|I]]]; auto.
Qed.

Lemma ccx_domain fuel c1 c2 tol result out : interval_covers c1 -> interval_covers c2 ->
  ccx len fuel c1 c2 tol result = Some (Ok out) ->
  exists new, out = result ++ new /\ forall s t, In (s, t) new -> within_interval c1 s /\ within_interval c2 t.
Proof.
  intros V1 V2. 
  assert (forall c, closed_split (fun a => interval_covers a /\ subinterval a c)) as CL.
  { intros c d a b [D1 [D2 D3]] H. destruct (split_intervals _ _ _ _ D1 H) as (A & B & [X1 X2] & [Y1 Y2]).
    split; (split; [assumption|]); split; eapply Qcle_trans; eassumption. }
  apply (ccx_new (fun a => interval_covers a /\ subinterval a c1) (fun a => interval_covers a /\ subinterval a c2) _ tol (CL c1) (CL c2)).
  - intros d1 d2 [[A1 _] [A2 A3]] [[B1 _] [B2 B3]] _ _ _.
    destruct (mid_in _ _ A1) as [M1 M2]. destruct (mid_in _ _ B1) as [M3 M4].
    split; split; eapply Qcle_trans; eassumption.
  - split; [assumption|]. split; apply Qcle_refl.
  - split; [assumption|]. split; apply Qcle_refl.
Qed.

(** ** Pieces of a curve *)
Definition piece (c q : ncurve) (lo hi : Qc) : Prop :=
  exists m, good_curve q m /\ nc_degree q = nc_degree c /\ unit_weights (nc_cps q) /\ interval_current q /\
    clamped m (nc_degree q) (nc_knots q) /\ knot (nc_knots q) 0 = lo /\ knot (nc_knots q) (m + 1) = hi /\
    halving (fst (nc_interval c)) (snd (nc_interval c)) lo hi /\
    (forall x, In x (nc_knots q) -> x = lo \/ x = hi \/ In x (nc_knots c)) /\
    (forall t, lo < t -> t < hi -> (multiplicity (nc_knots q) t <= nc_degree q)%nat) /\
    (forall u, lo <= u -> u <= hi -> exists pt, evaluate q u = Ok pt /\ evaluate c u = Ok pt /\ inside (nc_aabb q) pt).

Lemma clamped_interval c n : good_curve c n -> interval_current c -> clamped n (nc_degree c) (nc_knots c) ->
  nc_interval c = (knot (nc_knots c) 0, knot (nc_knots c) (n + 1)) /\ knot (nc_knots c) (nc_degree c) = knot (nc_knots c) 0 /\
  knot (nc_knots c) 0 < knot (nc_knots c) (n + 1).
Proof.
  intros (L & (V1 & V2 & V3 & V4) & H8) I [C1 C2]. rewrite I. rewrite V2.
  replace (n + nc_degree c + 2 - 1)%nat with (n + nc_degree c + 1)%nat by lia.
  split; [f_equal; apply C2; lia|]. split; [apply C1; lia|].
  pose proof (sorted_mono _ V3) as M. apply Qcle_lt_trans with (knot (nc_knots c) n); [apply M; lia|exact V4].
Qed.

Lemma piece_interval c q lo hi : piece c q lo hi -> nc_interval q = (lo, hi) /\ lo < hi.
Proof.
  intros (m & G & D & W & I & C & K0 & K1 & _). destruct (clamped_interval _ _ G I C) as (E & _ & L).
  rewrite K0, K1 in *. auto.
Qed.

Lemma bisectable_piece c : bisectable c -> piece c c (fst (nc_interval c)) (snd (nc_interval c)).
Proof.
  intros (n & G & H1 & W & I & C & B & M & S). destruct (clamped_interval _ _ G I C) as (E & E2 & L).
  rewrite E. cbn [fst snd]. exists n. do 5 (split; [assumption || reflexivity|]). split; [reflexivity|]. split; [reflexivity|].
  split; [rewrite E; constructor|]. split; [auto|]. split; [exact M|].
  intros u U1 U2. destruct (hull_top c n u G) as (pt & X1 & _ & X2).
  - split; [rewrite E2|]; assumption.
  - apply unit_positive. exact W.
  - exists pt. auto.
Qed.

Lemma mult_firstn U k t : (multiplicity (firstn k U) t <= multiplicity U t)%nat.
Proof. rewrite <- (firstn_skipn k U) at 2. rewrite mult_app. lia. Qed.
Lemma mult_skipn U k t : (multiplicity (skipn k U) t <= multiplicity U t)%nat.
Proof. rewrite <- (firstn_skipn k U) at 2. rewrite mult_app. lia. Qed.
Lemma mult_repeat_other t t' m : t <> t' -> multiplicity (repeat t' m) t = 0%nat.
Proof. intros H. apply mult_not. intros I. apply repeat_spec in I. congruence. Qed.

Lemma clamped_by_ends m p U lo hi : valid_knots m p U -> knot U 0 = lo -> knot U p = lo -> knot U (m + 1) = hi -> knot U (m + p + 1) = hi -> clamped m p U.
Proof.
  intros (V1 & V2 & V3 & V4) A B C D. pose proof (sorted_mono _ V3) as M. split; intros i.
  - intros H. apply Qcle_antisym; [rewrite A, <- B|]; apply M; lia.
  - intros H1 H2. apply Qcle_antisym; [rewrite C, <- D|]; apply M; lia.
Qed.

Lemma piece_split c q lo hi : bisectable c -> piece c q lo hi ->
  let t := (hi - lo) * qc 1 2 + lo in midpoint q = t /\
  ((nc_split q t false = Throw EInvalidArgument /\ (hi - lo) * qc 1 2 <= tol12) \/
   (tol12 < (hi - lo) * qc 1 2 /\ exists a b, nc_split q t false = Ok (a, b) /\ piece c a lo t /\ piece c b t hi)).
Proof.
  intros (n0 & G0 & H1 & W0 & I0 & C0 & B0 & M0 & S0) HP t. destruct (piece_interval _ _ _ _ HP) as (EI & LT).
  destruct (clamped_interval _ _ G0 I0 C0) as (EI0 & _ & _).
  assert (midpoint q = t) as EM by (unfold midpoint; rewrite EI; reflexivity). split; [exact EM|].
  assert (lo < t /\ t < hi) as [T1 T2] by (unfold t; split; qc_lra).
  destruct (Qcleb_spec ((hi - lo) * qc 1 2) tol12) as [LE|GT].
  { left. split; [|exact LE]. unfold nc_split. rewrite EI.
    assert (Qcabs (t - lo) <=? lit_1em12 = true) as E.
    { apply Qcleb_iff. destruct (Qcabs_cases (t - lo)) as [[P Q]|[P Q]]; rewrite Q; [|qc_lra].
      assert (t - lo = (hi - lo) * qc 1 2) as -> by (unfold t; ring). exact LE. }
    rewrite E. rewrite !orb_true_r. reflexivity. }
  right. assert (tol12 < (hi - lo) * qc 1 2) as GT' by (apply Qcnot_le_lt; exact GT). split; [exact GT'|].
  destruct HP as (m & G & D & W & I & C & K0 & K1 & HA & HK & HM & HE). pose proof G as (L & V & H8).
  destruct (clamped_interval _ _ G I C) as (_ & E2 & _). rewrite K0 in E2.
  assert (separated (nc_knots q) t) as SEP.
  { intros x Hx. destruct (HK x Hx) as [->|[->|Hx']].
    - right; right. assert (t - lo = (hi - lo) * qc 1 2) as -> by (unfold t; ring). exact GT'.
    - right; left. clear - GT'. unfold t. qc_lra.
    - rewrite EI0 in HA. cbn [fst snd] in HA. exact (S0 lo hi HA GT' x Hx'). }
  destruct (domain_span m (nc_degree q) (nc_knots q) t V) as (k & Hk & S1 & S2).
  { rewrite E2. apply Qclt_le_weak. exact T1. } { rewrite K1. exact T2. }
  destruct (split_ok q m t k) as (a & b & E & P1 & P2 & KA & KB & _); try assumption.
  { rewrite D. rewrite D in H8. lia. } { rewrite E2. exact T1. } { rewrite K1. exact T2. } { apply HM; assumption. }
  rewrite E2 in P1. rewrite K1 in P2.
  pose proof P1 as (ma & La & Va & _). pose proof P2 as (mb & Lb & Vb & _).
  apply (part_traces q a m) in P1; try assumption; [|rewrite E2; apply Qcle_refl|rewrite K1; apply Qclt_le_weak; exact T2].
  apply (part_traces q b m) in P2; try assumption; [|rewrite E2; apply Qclt_le_weak; exact T1|rewrite K1; apply Qcle_refl].
  destruct P1 as (m1 & G1 & D1 & W1 & I1 & L1 & R1 & TR1). destruct P2 as (m2 & G2 & D2 & W2 & I2 & L2 & R2 & TR2).
  exists a, b. split; [exact E|].
  pose proof V as (V1 & V2 & V3 & V4). pose proof (sorted_mono _ V3) as M.
  pose proof G1 as (_ & VA & _). pose proof G2 as (_ & VB & _). pose proof VA as (_ & VA2 & _ & _). pose proof VB as (_ & VB2 & _ & _).
  assert (knot (nc_knots a) 0 = lo) as E1.
  { rewrite KA. unfold knot. rewrite app_nth1 by (rewrite firstn_length; lia). rewrite nth_firstn_lt by lia.
    rewrite <- K0. unfold knot. apply nth_indep. lia. }
  assert (knot (nc_knots a) (m1 + nc_degree a + 1) = t) as E1'.
  { replace (m1 + nc_degree a + 1)%nat with (length (nc_knots a) - 1)%nat by lia.
    rewrite KA. rewrite app_assoc. rewrite app_length. cbn [length]. unfold knot.
    rewrite app_nth2 by lia. match goal with |- nth ?i _ _ = _ => replace i with 0%nat by lia end. reflexivity. }
  assert (knot (nc_knots b) 0 = t) as E3. { rewrite KB. rewrite Nat.add_1_r. reflexivity. }
  assert (knot (nc_knots b) (m2 + nc_degree b + 1) = hi) as E4.
  { replace (m2 + nc_degree b + 1)%nat with (length (nc_knots b) - 1)%nat by lia.
    rewrite KB. unfold knot. rewrite app_length, repeat_length, skipn_length.
    rewrite app_nth2 by (rewrite repeat_length; lia). rewrite repeat_length. rewrite nth_skipn_add.
    destruct C as [_ C2]. rewrite <- K1. rewrite <- (C2 (m + nc_degree q + 1)%nat) by lia. unfold knot.
    match goal with |- nth ?i _ _ = nth ?j _ _ => replace i with j by lia end. apply nth_indep. lia. }
  split.
  - exists m1. split; [exact G1|]. split; [congruence|]. split; [exact W1|]. split; [exact I1|].
    split; [apply (clamped_by_ends m1 _ _ lo t); try assumption; rewrite D1; assumption|].
    split; [exact E1|]. split; [exact R1|]. split; [apply halving_left; exact HA|]. split; [|split].
    + intros x Hx. rewrite KA in Hx. rewrite !in_app_iff in Hx. destruct Hx as [Hx|[Hx|[<-|[]]]].
      * assert (x <= t) as Hxt.
        { destruct (In_nth _ _ 0 Hx) as (i & Hi & Ei). rewrite firstn_length in Hi. rewrite nth_firstn_lt in Ei by lia.
          rewrite <- knot_nth in Ei by lia. rewrite <- Ei. apply Qcle_trans with (knot (nc_knots q) k); [apply M; lia|exact S1]. }
        assert (In x (nc_knots q)) as Hq by (rewrite <- (firstn_skipn (k + 1) (nc_knots q)); apply in_or_app; left; exact Hx).
        destruct (HK x Hq) as [->|[->|X]]; [auto| |auto]. exfalso. qc_lra.
      * apply repeat_spec in Hx. auto.
      * auto.
    + intros t' A1 A2. rewrite KA, !mult_app. rewrite mult_repeat_other by (intros ->; qc_lra).
      rewrite (mult_not [t]) by (intros [<-|[]]; qc_lra). pose proof (mult_firstn (nc_knots q) (k + 1) t').
      specialize (HM t' A1 ltac:(qc_lra)). rewrite D1. lia.
    + intros u U1 U2. destruct (TR1 u U1 U2) as (pt & X1 & X2 & X3). destruct (HE u U1 ltac:(qc_lra)) as (pt' & Y1 & Y2 & _).
      assert (pt = pt') as <- by congruence. exists pt. auto.
  - exists m2. split; [exact G2|]. split; [congruence|]. split; [exact W2|]. split; [exact I2|].
    split; [apply (clamped_by_ends m2 _ _ t hi); try assumption; rewrite D2; assumption|].
    split; [exact E3|]. split; [exact R2|]. split; [apply halving_right; exact HA|]. split; [|split].
    + intros x Hx. rewrite KB in Hx. rewrite !in_app_iff in Hx. destruct Hx as [Hx|Hx].
      * apply repeat_spec in Hx. auto.
      * assert (t < x) as Hxt.
        { destruct (In_nth _ _ 0 Hx) as (i & Hi & Ei). rewrite skipn_length in Hi. rewrite nth_skipn_add in Ei.
          rewrite <- knot_nth in Ei by lia. rewrite <- Ei. apply Qclt_le_trans with (knot (nc_knots q) (S k)); [exact S2|apply M; lia]. }
        assert (In x (nc_knots q)) as Hq by (rewrite <- (firstn_skipn (k + 1) (nc_knots q)); apply in_or_app; right; exact Hx).
        destruct (HK x Hq) as [->|[->|X]]; [|auto|auto]. exfalso. qc_lra.
    + intros t' A1 A2. rewrite KB, !mult_app. rewrite mult_repeat_other by (intros ->; qc_lra).
      pose proof (mult_skipn (nc_knots q) (k + 1) t').
      specialize (HM t' ltac:(qc_lra) A2). rewrite D2. lia.
    + intros u U1 U2. destruct (TR2 u U1 U2) as (pt & X1 & X2 & X3). destruct (HE u ltac:(qc_lra) U2) as (pt' & Y1 & Y2 & _).
      assert (pt = pt') as <- by congruence. exists pt. auto.
Qed.
End Ccx.
