(** convex_hull3d returns the extreme points. *)
From Coq Require Import List Arith Bool ZArith Reals Lra Lia Permutation.
From Verif Require Import Base LoopFacts ModelPlane ModelQuickhull SpecQuickhull ProofQhGeo ProofQhMesh ProofQhRidge ProofQhWalk ProofQhStep ProofQhHull ProofQhDet ProofQhBasis ProofQhFlat ProofQhInit ProofQhPull ProofQhSpan ProofQhCompact.
Import ListNotations.
Local Open Scope R_scope.

Lemma unique_vertices_in i : forall l seen, In i (unique_vertices seen l) <-> In i l /\ ~ In i seen.
Proof.
  induction l as [|j l IH]; intros seen; cbn [unique_vertices In]; [tauto|]. destruct (mem j seen) eqn:E.
  - rewrite IH. apply mem_in in E. split; [tauto|]. intros [[<-|A] B]; [contradiction|tauto].
  - assert (~ In j seen) as N by (intros X; apply mem_in in X; congruence). cbn [In]. rewrite IH. cbn [In]. destruct (Nat.eq_dec j i) as [->|]; tauto.
Qed.
Lemma unique_vertices_nodup : forall l seen, NoDup (unique_vertices seen l).
Proof.
  induction l as [|j l IH]; intros seen; cbn [unique_vertices]; [constructor|]. destruct (mem j seen); [apply IH|]. constructor; [|apply IH]. rewrite unique_vertices_in. cbn. tauto.
Qed.
Lemma hull_indices_in fs i : In i (hull_indices fs) <-> exists k, (k < length fs)%nat /\ InT i (fvert (fat fs k)).
Proof.
  unfold hull_indices. rewrite unique_vertices_in, in_flat_map. split.
  - intros [(f & If & I) _]. destruct (In_nth _ _ fdflt If) as (k & B & E). exists k. split; [exact B|]. unfold fat. rewrite E. destruct I as [<-|[<-|[<-|[]]]]; [exists I0|exists I1|exists I2]; reflexivity.
  - intros (k & B & [v <-]). split; [|tauto]. exists (fat fs k). split; [apply nth_In; exact B|]. destruct v; cbn; auto.
Qed.
Lemma mapM_get pts l : (forall i, In i l -> (i < length pts)%nat) -> mapM (get pts) l = Ok (map (pt pts) l).
Proof.
  induction l as [|i l IH]; intros B; cbn [mapM map]; [reflexivity|]. rewrite (get_ok pts i (RV 0 0 0)) by (apply B; left; reflexivity). cbn [bind]. rewrite IH by (intros j J; apply B; right; exact J). reflexivity.
Qed.
Lemma another n (l : list nat) : (length l < n)%nat -> exists c, (c < n)%nat /\ ~ In c l.
Proof.
  intros L. destruct (forallb (fun c => mem c l) (seq 0 n)) eqn:E.
  - exfalso. assert (incl (seq 0 n) l) as IN by (intros c C; apply mem_in; rewrite forallb_forall in E; exact (E c C)). apply NoDup_incl_length in IN; [rewrite seq_length in IN; lia|apply seq_NoDup].
  - clear L. assert (forall m, forallb (fun c => mem c l) m = false -> exists c, In c m /\ ~ In c l) as H.
    { induction m as [|c m IH]; cbn; [discriminate|]. intros X. destruct (mem c l) eqn:Q; cbn in X; [destruct (IH X) as (x & A & B); exists x; auto|exists c; split; [auto|intros Y; apply mem_in in Y; congruence]]. }
    destruct (H _ E) as (c & A & B). exists c. split; [apply in_seq in A; lia|exact B].
Qed.
Lemma mesh_linked P n L fs dead : mesh P n L (vtf fs) (nbf fs) -> (forall k, live dead fs k <-> In k L) -> linked dead fs.
Proof.
  intros M LV. split.
  - intros x v X. apply LV in X. destruct (side_facts P n L _ _ M x v X) as (w & H). cbn zeta in *. destruct H as (J & _ & B & _ & _ & _ & N & _). split; [apply LV; exact J|]. split; [intros Y; apply N; rewrite Y; exists v; reflexivity|]. exists w. exact B.
  - intros x v w X E. apply LV in X. destruct (side_facts P n L _ _ M x v X) as (v' & H1). destruct (side_facts P n L _ _ M x w X) as (w' & H2). cbn zeta in *. rewrite E in H1.
    destruct H1 as (_ & _ & _ & _ & _ & _ & N & _). destruct H2 as (_ & _ & _ & E1 & E2 & _). 
    destruct (three_eqb v w) eqn:Q; [destruct v, w; try discriminate; reflexivity|exfalso]. apply N.
    assert (v = nx w \/ v = nx (nx w)) as [->| ->] by (destruct v, w; cbn in *; auto; discriminate); [rewrite <- E2|rewrite <- E1]; eexists; reflexivity.
Qed.

Lemma simplex_indices a b c d swap fs : length fs = 4%nat -> (forall k, In k [0; 1; 2; 3]%nat -> fvert (fat fs k) = fvert (simplex_facet a b c d k swap)) ->
  forall i, In i (hull_indices fs) <-> In i [a; b; c; d].
Proof.
  intros Len E i. rewrite hull_indices_in, Len. split.
  - intros (k & B & [v V]). rewrite E in V by (cbn; lia). destruct k as [|[|[|[|k]]]]; try lia; destruct swap, v; cbn in V; subst i; cbn; auto.
  - intros I. repeat destruct I as [<-|I]; try contradiction.
    + exists 1%nat. split; [lia|]. rewrite E by (cbn; auto). destruct swap; [exists I2|exists I0]; reflexivity.
    + exists 0%nat. split; [lia|]. rewrite E by (cbn; auto). destruct swap; [exists I0|exists I2]; reflexivity.
    + exists 0%nat. split; [lia|]. rewrite E by (cbn; auto). destruct swap; exists I1; reflexivity.
    + exists 0%nat. split; [lia|]. rewrite E by (cbn; auto). destruct swap; [exists I2|exists I0]; reflexivity.
Qed.
Lemma nodup_same_length (l m : list nat) : NoDup l -> NoDup m -> (forall i, In i l <-> In i m) -> length l = length m.
Proof. intros A B H. apply Nat.le_antisymm; apply NoDup_incl_length; try assumption; intros i; apply H. Qed.
Lemma quick_hull3d_five eps lower pts hull : (5 <= length pts)%nat -> quick_hull3d eps lower pts hull =
  ('(basis, out) <- affine_basis eps pts (seq 0 (length pts)) ;;
    match basis with
    | [a; b; c; d] =>
      '(lower, h) <- initial_simplex eps pts a b c d lower (QH [] [] [] out) ;;
      fs <- create_hull eps pts lower h ;;
      more <- mapM (get pts) (hull_indices fs) ;; Ok (hull ++ more)
    | _ => mapM (get pts) basis
    end).
Proof. intros B. unfold quick_hull3d. destruct pts as [|p l]; [cbn in B; lia|]. destruct (Nat.ltb_spec (length (p :: l)) 5); [lia|reflexivity]. Qed.
Lemma v3_dec (p q : v3r) : {p = q} + {p <> q}.
Proof. destruct p as [a b c], q as [d e f]. destruct (Req_EM_T a d) as [->|X]; [|right; congruence]. destruct (Req_EM_T b e) as [->|X]; [|right; congruence]. destruct (Req_EM_T c f) as [->|X]; [left; reflexivity|right; congruence]. Qed.
Section Final.
Variables (eps : R) (pts : list v3r) (k : Z) (M : R).
Let n := length pts.
Let P := pt pts.
Hypothesis Eps : 0 <= eps.
Hypothesis Kp : (0 < k)%Z.
Hypothesis M1 : 1 <= M.
Hypothesis HE : 16 * eps * IZR k ^ 3 * M ^ 2 < 1.
Hypothesis OG : forall p, In p pts -> on_grid k M p.
Hypothesis NP : ~ on_one_plane pts.
Hypothesis N5 : (5 <= n)%nat.
Lemma EK1 : eps * IZR k < 1.
Proof.
  assert (1 <= IZR k) as KG by (apply IZR_le; lia). assert (1 <= M ^ 2) by nra. assert (IZR k <= IZR k ^ 3) by (assert (1 <= IZR k * IZR k) by nra; nra). assert (eps * IZR k <= eps * IZR k ^ 3) by (apply Rmult_le_compat_l; assumption).
  assert (0 <= eps * IZR k ^ 3) by (apply Rmult_le_pos; lra). assert (eps * IZR k ^ 3 * 1 <= eps * IZR k ^ 3 * M ^ 2) by (apply Rmult_le_compat_l; lra). lra.
Qed.
Lemma EK2 : eps * (4 * M * IZR k ^ 2) < 1.
Proof.
  assert (1 <= IZR k) as KG by (apply IZR_le; lia). assert (0 <= IZR k ^ 2 <= IZR k ^ 3) as [X0 X1] by (assert (1 <= IZR k * IZR k) by nra; nra). assert (0 <= M <= M ^ 2) as [Y0 Y1] by nra.
  assert (IZR k ^ 2 * M <= IZR k ^ 3 * M ^ 2) by (apply Rmult_le_compat; assumption). assert (eps * (IZR k ^ 2 * M) <= eps * (IZR k ^ 3 * M ^ 2)) by (apply Rmult_le_compat_l; assumption).
  assert (0 <= eps * (IZR k ^ 3 * M ^ 2)) by (apply Rmult_le_pos; [exact Eps|nra]). lra.
Qed.
Lemma M0' : 0 < M. Proof. lra. Qed.
(** the first simplex *)
Lemma hull_start : exists a b c d swap, let cen := middle pts a b c d in let Lv := level k M (n + 2) in
  (a < n)%nat /\ (b < n)%nat /\ (c < n)%nat /\ (d < n)%nat /\ NoDup [a; b; c; d] /\
  (forall t, facet_ok pts cen t -> exists nd, plane_of eps pts t = Ok nd /\ forall i, (i < n)%nat -> sided eps pts t nd i) /\
  exists h0, hull_ok eps pts cen Lv 0 (fun _ => 0) (QH (facets h0) (removed h0) (ranking h0) []) [0; 1; 2; 3]%nat /\ (sumout (facets h0) [0; 1; 2; 3]%nat <= n)%nat /\
  length (facets h0) = 4%nat /\ (forall x, In x [0; 1; 2; 3]%nat -> fvert (fat (facets h0) x) = fvert (simplex_facet a b c d x swap)) /\
  forall lower hull, quick_hull3d eps lower pts hull =
    (fs <- create_hull eps pts lower (QH (facets h0) (removed h0) (ranking h0) []) ;; more <- mapM (get pts) (hull_indices fs) ;; Ok (hull ++ more)).
Proof.
  destruct (affine_basis_ok eps pts k M Eps Kp M0' EK1 EK2 OG NP ltac:(fold n; lia)) as (a & b & c & d & out & EB & BO & NV).
  assert (forall i, (i < n)%nat <-> In i ([a; b; c; d] ++ out)) as BI.
  { intros i. split; intros X; [apply (Permutation_in i (Permutation_sym BO)), in_seq; lia|apply (Permutation_in i BO), in_seq in X; lia]. }
  assert (NoDup ([a; b; c; d] ++ out)) as NDo by (apply (Permutation_NoDup (Permutation_sym BO)), seq_NoDup). pose proof (nodup4 pts a b c d out NDo) as ND.
  assert (a < n /\ b < n /\ c < n /\ d < n)%nat as (Ba & Bb & Bc & Bd) by (repeat split; apply BI; cbn; auto).
  pose proof (planes eps pts k M Eps Kp M1 HE OG (middle pts a b c d)) as PL.
  pose proof (hypervolume_vol eps pts k M Eps Kp M1 HE OG a b c d Ba Bb Bc Bd) as HV. pose proof (vol_far eps pts k M Eps Kp M1 HE OG a b c d Ba Bb Bc Bd NV) as VF. fold P in HV, VF, NV.
  set (V := vol (P a) (P b) (P c) (P d)) in *. set (swap := if Rlt_dec (- V) 0 then true else false).
  assert (if swap then 0 < V else V < 0) as Sgn by (unfold swap; destruct (Rlt_dec (- V) 0); lra).
  destruct (simplex_hull eps pts Eps (level k M (n + 2)) (proj1 (level_small pts k M Kp M1 a b c d Ba Bb Bc Bd (n + 2) 0 ltac:(lia))) a b c d swap Ba Bb Bc Bd ND Sgn PL out BI) as (h0 & E0 & H0 & S0 & Len & FV).
  exists a, b, c, d, swap. cbn zeta. do 4 (split; [assumption|]). split; [exact ND|]. split; [exact PL|]. exists h0. split; [exact H0|]. split; [|split; [exact Len|split; [exact FV|]]].
  { apply Permutation_length in BO. rewrite app_length, seq_length in BO. cbn in BO. fold n in BO. lia. }
  intros lower hull. rewrite (quick_hull3d_five _ _ _ _ N5), EB. cbn [bind]. unfold initial_simplex.
  rewrite (get_ok pts a (RV 0 0 0) Ba). cbn [bind]. rewrite (get_ok pts b (RV 0 0 0) Bb). cbn [bind]. rewrite (get_ok pts c (RV 0 0 0) Bc). cbn [bind]. rewrite (get_ok pts d (RV 0 0 0) Bd). cbn [bind].
  fold (pt pts a) (pt pts b) (pt pts c) (pt pts d). fold P. rewrite HV. destruct (Rlt_dec (Rabs (- V)) eps) as [X|_]; [rewrite Rabs_Ropp in X; lra|].
  fold swap. rewrite E0. cbn [bind]. reflexivity.
Qed.
Lemma hull_run : exists fs (L : list nat) (vt : nat -> tri nat) cen, (forall f, In f L -> good_tri n (vt f) /\ VT P (vt f) cen < 0) /\
  (forall l x, (forall f i, In f L -> InT i (vt f) -> In (P i) l) -> (forall f, In f L -> VT P (vt f) x <= 0) -> in_hullr l x) /\
  (forall i f, (i < n)%nat -> In f L -> VT P (vt f) (P i) <= 0) /\
  (forall i, In i (hull_indices fs) <-> exists f, In f L /\ InT i (vt f)) /\
  (forall i j, In i (hull_indices fs) -> In j (hull_indices fs) -> P i = P j -> i = j) /\
  forall hull, quick_hull3d eps false pts hull = Ok (hull ++ map P (hull_indices fs)).
Proof.
  destruct hull_start as (a & b & c & d & swap & Ba & Bb & Bc & Bd & ND & PL & h0 & H0 & S0 & _ & _ & RUN). cbn zeta in *.
  set (cen := middle pts a b c d) in *. set (Lv := level k M (n + 2)) in *.
  pose proof (fun j => level_small pts k M Kp M1 a b c d Ba Bb Bc Bd (n + 2) j) as LS.
  destruct (hull_loop_ok eps pts Eps cen Lv (n + 2)%nat LS
    (fun j => level_le pts k M Kp M1 a b c d Ba Bb Bc Bd (n + 2) j) (pull_pos pts k M Kp M1 OG a b c d Ba Bb Bc Bd (n + 2)) (pull_neg pts k M Kp M1 OG a b c d Ba Bb Bc Bd (n + 2)) PL
    n 0 (fun _ => 0) _ _ H0 S0 ltac:(lia)) as (h & L & j & dl & EL & H & BJ & RK).
  pose proof (hull_done _ _ _ _ _ _ _ _ H RK) as DN. pose proof (h_mesh _ _ _ _ _ _ _ _ H) as MS. pose proof (h_c0 _ _ _ _ _ _ _ _ H) as HC. pose proof (h_lev _ _ _ _ _ _ _ _ H) as HL.
  assert (forall x, live (sort_desc (removed h)) (facets h) x <-> In x L) as LV.
  { intros x. unfold live. rewrite sort_desc_in, (h_dom _ _ _ _ _ _ _ _ H x). pose proof (h_dis _ _ _ _ _ _ _ _ H x). tauto. }
  destruct (compactify_ok (sort_desc (removed h)) (facets h)) as (fs & EC & FC).
  - apply sort_desc_desc, (h_remn _ _ _ _ _ _ _ _ H).
  - intros x X. apply (proj1 (sort_desc_in _ _)) in X. apply (h_dom _ _ _ _ _ _ _ _ H). right. exact X.
  - apply (mesh_linked (pull pts cen dl) n L); [exact MS|exact LV].
  - exists fs, L, (vtf (facets h)), cen. 
    assert (forall i, In i (hull_indices fs) <-> exists f, In f L /\ InT i (vtf (facets h) f)) as HI.
    { intros i. rewrite hull_indices_in. split.
      - intros (x & Bx & T). destruct (proj1 (FC (fvert (fat fs x)))) as (y & Ly & Ey); [exists x; auto|]. exists y. split; [apply LV; exact Ly|]. unfold vtf. rewrite Ey. exact T.
      - intros (y & Iy & T). destruct (proj2 (FC (fvert (fat (facets h) y)))) as (x & Bx & Ex); [exists y; split; [apply LV; exact Iy|reflexivity]|]. exists x. split; [exact Bx|]. rewrite Ex. exact T. }
    split; [intros f If; split; [exact (m_tri _ _ _ _ _ MS f If)|exact (HC f If)]|]. split; [|split; [intros i f Bi If; exact (DN i f Bi If)|split; [exact HI|split]]].
    + intros l x IL LE. apply (pulled_in_hull P n L _ _ cen dl MS HC); [| |exact IL|exact LE].
      * intros f If. apply (proj2 (pull_sign pts cen Lv (n + 2)%nat LS j dl (vtf (facets h) f) ltac:(lia) (fun v => HL f v If))). exact (HC f If).
      * intros f i If [v <-]. destruct (HL f v If) as [X1 X2]. split; [exact X1|]. eapply Rle_lt_trans; [exact X2|]. apply (LS j). lia.
    + intros i i' I I' E. apply HI in I as (f & If & [v <-]). apply HI in I' as (f' & If' & [v' <-]). exact (h_inj _ _ _ _ _ _ _ _ H f f' v v' If If' E).
    + intros hull. rewrite RUN. unfold create_hull. fold n. rewrite EL. cbn [bind]. rewrite EC. cbn [bind].
      rewrite mapM_get; [reflexivity|]. intros i I. apply HI in I as (f & If & [v <-]). apply (m_tri _ _ _ _ _ MS f If).
Qed.
(** the points returned: all points are in their hull, each of them is on the
    boundary *)
Lemma hull_cover : exists found, (forall hull, quick_hull3d eps false pts hull = Ok (hull ++ found)) /\ NoDup found /\ incl found pts /\
  (forall p, In p pts -> in_hullr found p) /\ (forall p, In p found -> on_boundary pts p) /\ (forall p, extreme pts p -> In p found).
Proof.
  destruct hull_run as (fs & L & vt & cen & FO & IH & LO & HI & INJ & RUN). set (idx := hull_indices fs) in *. exists (map P idx). split; [exact RUN|].
  assert (forall i, In i idx -> (i < n)%nat) as IB by (intros i I; apply HI in I as (f & If & [v <-]); apply (FO f If)).
  assert (forall p, In p pts -> in_hullr (map P idx) p) as COV.
  { intros p Ip. destruct (In_nth _ _ (RV 0 0 0) Ip) as (i & Bi & <-). apply IH; [intros f j If J; apply in_map, HI; exists f; auto|intros f If; exact (LO i f Bi If)]. }
  assert (incl (map P idx) pts) as INC by (intros p Ip; apply in_map_iff in Ip as (i & <- & I); apply nth_In, IB, I).
  split; [|split; [exact INC|split; [exact COV|split]]].
  - assert (NoDup idx) as ND by apply unique_vertices_nodup. fold idx. revert ND INJ. clear. induction idx as [|i l IH]; intros ND INJ; cbn [map]; constructor; inversion ND; subst.
    + intros X. apply in_map_iff in X as (j & E & J). apply INJ in E; [subst; contradiction|right; exact J|left; reflexivity].
    + apply IH; [assumption|intros x y A B; apply INJ; right; assumption].
  - intros p Ip. split; [exact (INC p Ip)|]. apply in_map_iff in Ip as (i & <- & I). apply HI in I as (f & If & [v <-]). destruct (FO f If) as [_ NC]. unfold VT in NC.
    exists (CT P (vt f)). split.
    + intros X. revert NC. rewrite vol_cr. fold (CT P (vt f)). rewrite X. unfold rvdot. cbn [rx ry rz]. lra.
    + intros q Iq. destruct (In_nth _ _ (RV 0 0 0) Iq) as (i & Bi & E). fold (pt pts i) in E. fold P in E. pose proof (LO i f Bi If) as LE. rewrite E in LE.
      assert (VT P (vt f) (P (tget v (vt f))) = 0) as Z by (unfold VT; destruct v; [apply vol_at_a|apply vol_at_b|apply vol_at_c]).
      unfold VT in LE, Z. rewrite vol_cr in LE, Z. fold (CT P (vt f)) in LE, Z. revert LE Z. set (g := CT P (vt f)). clearbody g. unfold rvdot, rvsub. cbn [rx ry rz]. lra.
  - intros p (l1 & l2 & E & X). destruct (in_dec v3_dec p (map P idx)) as [I|I]; [exact I|exfalso]. apply X.
    apply (hull_incl (map P idx)); [|apply COV; rewrite E; apply in_or_app; right; left; reflexivity].
    intros q Q. pose proof (INC q Q) as J. rewrite E in J. apply in_app_iff in J as [J|[J|J]]; apply in_or_app; [left; exact J|subst; contradiction|right; exact J].
Qed.
(** with lower_dimensional_hull_ set before: the simplex *)
Lemma hull_lower : exists found, length found = 4%nat /\ forall hull, quick_hull3d eps true pts hull = Ok (hull ++ found).
Proof.
  destruct hull_start as (a & b & c & d & swap & Ba & Bb & Bc & Bd & ND & PL & h0 & H0 & S0 & Len & FV & RUN).
  pose proof (simplex_indices a b c d swap _ Len FV) as HI.
  exists (map P (hull_indices (facets h0))). split.
  - rewrite map_length. apply (nodup_same_length _ [a; b; c; d]); [apply unique_vertices_nodup|exact ND|exact HI].
  - intros hull. rewrite RUN. unfold create_hull. cbn [bind facets].
    rewrite mapM_get; [reflexivity|]. intros i I. apply HI in I. destruct I as [<-|[<-|[<-|[<-|[]]]]]; assumption.
Qed.
End Final.
Section General.
Variables (eps : R) (pts : list v3r) (k : Z) (M : R).
Let n := length pts.
Let P := pt pts.
Hypothesis Eps : 0 <= eps.
Hypothesis Kp : (0 < k)%Z.
Hypothesis M1 : 1 <= M.
Hypothesis HE : 16 * eps * IZR k ^ 3 * M ^ 2 < 1.
Hypothesis OG : forall p, In p pts -> on_grid k M p.
Hypothesis NC : no_four_coplanar pts.
Hypothesis N5 : (5 <= n)%nat.
Lemma pt_error i : (i < n)%nat -> nth_error pts i = Some (P i).
Proof. intros B. apply nth_error_nth'. exact B. Qed.
Lemma GP : forall a b c d, (a < n)%nat -> (b < n)%nat -> (c < n)%nat -> (d < n)%nat -> NoDup [a; b; c; d] -> vol (P a) (P b) (P c) (P d) <> 0.
Proof. intros a b c d A B C D ND. apply (NC a b c d); auto using pt_error. Qed.
Lemma general_not_flat : ~ on_one_plane pts.
Proof. intros (nv & h & NZ & PL). apply (GP 0 1 2 3); [lia..|repeat constructor; cbn; lia|]. apply (flat_vol pts nv h NZ PL); fold n; lia. Qed.
Lemma hull_final : exists found, (forall hull, quick_hull3d eps false pts hull = Ok (hull ++ found)) /\ NoDup found /\
  (forall p, In p found <-> extreme pts p) /\ (forall p, In p pts -> in_hullr found p).
Proof.
  destruct (hull_run eps pts k M Eps Kp M1 HE OG general_not_flat N5) as (fs & L & vt & cen & FO & IH & LO & HI & INJ & RUN).
  destruct (hull_cover eps pts k M Eps Kp M1 HE OG general_not_flat N5) as (found & RUN' & ND & INC & COV & _ & EXT).
  set (idx := hull_indices fs) in *.
  assert (found = map P idx) as EF by (pose proof (RUN []) as A; rewrite (RUN' []) in A; injection A as A; exact A).
  exists found. split; [exact RUN'|]. split; [exact ND|]. split; [|exact COV]. intros p. split; [|exact (EXT p)]. rewrite EF.
  assert (forall i, In i idx -> (i < n)%nat) as IB by (intros i I; apply HI in I as (f & If & [v <-]); apply (FO f If)).
  intros X. apply in_map_iff in X as (i & <- & I). pose proof (IB i I) as Bi.
  exists (firstn i pts), (skipn (S i) pts). split.
  { rewrite <- (firstn_skipn i pts) at 1. f_equal. clear - Bi. unfold P, pt, n in *. revert i Bi. induction pts as [|q l IH]; intros i B; cbn in B; [lia|]. destruct i; [reflexivity|]. cbn [skipn nth]. apply IH. lia. }
  apply HI in I as (K & IK & [v E]). intros X. destruct (FO K IK) as [GT CK].
  apply (vertex_extreme P n L vt (fun _ _ => 0%nat) GP K v (filter (fun j => negb (Nat.eqb j i)) (seq 0 n)) cen IK GT CK (fun j Bj => LO j K Bj IK)).
  - intros j J. apply filter_In in J as [J1 J2]. apply in_seq in J1. split; [lia|]. rewrite E. destruct (Nat.eqb_spec j i); [discriminate|assumption].
  - rewrite E. revert X. apply hull_incl. intros q Q. assert (exists j, (j < n)%nat /\ j <> i /\ P j = q) as (j & Bj & Nj & <-).
    { apply in_app_iff in Q as [Q|Q]; destruct (In_nth _ _ (RV 0 0 0) Q) as (j & Bj & <-).
      - rewrite firstn_length in Bj. fold n in Bj. exists j. split; [lia|]. split; [lia|]. symmetry. apply nth_firstn_lt. lia.
      - rewrite skipn_length in Bj. fold n in Bj. exists (S i + j)%nat. split; [lia|]. split; [lia|]. symmetry. apply nth_skipn_add. }
    apply in_map, filter_In. split; [apply in_seq; lia|]. destruct (Nat.eqb_spec j i); [contradiction|reflexivity].
Qed.
End General.

(** small inputs *)
Section Tiny.
Variables (eps : R) (pts : list v3r) (k : Z) (M : R).
Let n := length pts.
Let P := pt pts.
Hypothesis Eps : 0 <= eps.
Hypothesis Kp : (0 < k)%Z.
Hypothesis M0 : 0 < M.
Hypothesis EK1 : eps * IZR k < 1.
Hypothesis EK2 : eps * (4 * M * IZR k ^ 2) < 1.
Hypothesis OG : forall p, In p pts -> on_grid k M p.
Hypothesis NP : ~ on_one_plane pts.
Hypothesis N5 : (5 <= n)%nat.
Hypothesis Small : 64 * M ^ 3 < eps.
Lemma hull_tiny lower hull : quick_hull3d eps lower pts hull = Ok hull.
Proof.
  destruct (affine_basis_ok eps pts k M Eps Kp M0 EK1 EK2 OG NP ltac:(fold n; lia)) as (a & b & c & d & out & EB & BO & _).
  assert (forall i, In i ([a; b; c; d] ++ out) -> (i < n)%nat) as BI by (intros i X; apply (Permutation_in i BO), in_seq in X; lia).
  assert (a < n /\ b < n /\ c < n /\ d < n)%nat as (Ba & Bb & Bc & Bd) by (repeat split; apply BI; cbn; auto).
  rewrite (quick_hull3d_five _ _ _ _ N5), EB. cbn [bind]. unfold initial_simplex.
  rewrite (get_ok pts a (RV 0 0 0) Ba). cbn [bind]. rewrite (get_ok pts b (RV 0 0 0) Bb). cbn [bind]. rewrite (get_ok pts c (RV 0 0 0) Bc). cbn [bind]. rewrite (get_ok pts d (RV 0 0 0) Bd). cbn [bind].
  fold (pt pts a) (pt pts b) (pt pts c) (pt pts d).
  destruct (Rlt_dec _ eps) as [_|X]; [cbn; rewrite app_nil_r; reflexivity|exfalso]. apply X. eapply Rle_lt_trans; [|exact Small].
  replace (64 * M ^ 3) with (grow 3 (2 * M)) by (cbn; ring). unfold hypervolume. apply lup_bound; [exact Eps|reflexivity|lra|].
  assert (forall i, (i < n)%nat -> forall x, In x (minus (comps (pt pts i)) (comps (pt pts d))) -> Rabs x <= 2 * M) as D.
  { intros i Bi x Ix. destruct (sub_small pts k M Kp OG i d Bi Bd) as ([_ S1] & [_ S2] & [_ S3]). unfold rvsub in S1, S2, S3. cbn [rx ry rz] in S1, S2, S3. unfold minus, comps in Ix. cbn [combine map In] in Ix. destruct Ix as [<-|[<-|[<-|[]]]]; assumption. }
  intros row x [<-|[<-|[<-|[]]]]; apply D; assumption.
Qed.
End Tiny.

Lemma grid_eps k M : 16 * IZR k ^ 3 * M ^ 2 < 2 ^ 52 -> 16 * machine_eps * IZR k ^ 3 * M ^ 2 < 1.
Proof.
  intros H. unfold machine_eps. assert (0 < 2 ^ 52) as P by (apply pow_lt; lra). apply (Rmult_lt_reg_r (2 ^ 52)); [exact P|]. rewrite Rmult_1_l.
  replace (16 * / 2 ^ 52 * IZR k ^ 3 * M ^ 2 * 2 ^ 52) with (16 * IZR k ^ 3 * M ^ 2) by (field; lra). exact H.
Qed.
Lemma eps_nonneg : 0 <= machine_eps. Proof. unfold machine_eps. apply Rlt_le, Rinv_0_lt_compat, pow_lt. lra. Qed.
Lemma hull3d_extreme k M pts hull : (0 < k)%Z -> 1 <= M -> 16 * IZR k ^ 3 * M ^ 2 < 2 ^ 52 -> (forall p, In p pts -> on_grid k M p) -> no_four_coplanar pts -> (5 <= length pts)%nat ->
  exists found, convex_hull3d false pts hull = Ok (hull ++ found) /\ NoDup found /\ (forall p, In p found <-> extreme pts p) /\ (forall p, In p pts -> in_hullr found p).
Proof.
  intros A B C D E F. destruct (hull_final machine_eps pts k M eps_nonneg A B (grid_eps _ _ C) D E F) as (found & H1 & H2). exists found. split; [apply H1|exact H2].
Qed.
Lemma hull3d_cover k M pts hull : (0 < k)%Z -> 1 <= M -> 16 * IZR k ^ 3 * M ^ 2 < 2 ^ 52 -> (forall p, In p pts -> on_grid k M p) -> ~ on_one_plane pts -> (5 <= length pts)%nat ->
  exists found, convex_hull3d false pts hull = Ok (hull ++ found) /\ NoDup found /\ incl found pts /\ (forall p, In p pts -> in_hullr found p) /\ (forall p, In p found -> on_boundary pts p) /\ (forall p, extreme pts p -> In p found).
Proof.
  intros A B C D E F. destruct (hull_cover machine_eps pts k M eps_nonneg A B (grid_eps _ _ C) D E F) as (found & H1 & H2). exists found. split; [apply H1|exact H2].
Qed.
Lemma hull3d_flag k M pts hull : (0 < k)%Z -> 1 <= M -> 16 * IZR k ^ 3 * M ^ 2 < 2 ^ 52 -> (forall p, In p pts -> on_grid k M p) -> ~ on_one_plane pts -> (5 <= length pts)%nat ->
  exists found, convex_hull3d true pts hull = Ok (hull ++ found) /\ length found = 4%nat.
Proof.
  intros A B C D E F. destruct (hull_lower machine_eps pts k M eps_nonneg A B (grid_eps _ _ C) D E F) as (found & H1 & H2). exists found. split; [apply H2|exact H1].
Qed.
Lemma tiny_k k M : (0 < k)%Z -> 0 < M -> 64 * M ^ 3 * 2 ^ 52 < 1 -> 4 * M * IZR k ^ 2 < 2 ^ 52 -> IZR k < 2 ^ 52 ->
  64 * M ^ 3 < machine_eps /\ machine_eps * (4 * M * IZR k ^ 2) < 1 /\ machine_eps * IZR k < 1.
Proof.
  intros A B C D E. unfold machine_eps. assert (0 < 2 ^ 52) as P by (apply pow_lt; lra).
  repeat split; apply (Rmult_lt_reg_r (2 ^ 52)); try exact P.
  - rewrite Rinv_l by lra. exact C.
  - rewrite Rmult_1_l. replace (/ 2 ^ 52 * (4 * M * IZR k ^ 2) * 2 ^ 52) with (4 * M * IZR k ^ 2) by (field; lra). exact D.
  - rewrite Rmult_1_l. replace (/ 2 ^ 52 * IZR k * 2 ^ 52) with (IZR k) by (field; lra). exact E.
Qed.
Lemma hull3d_tiny k M pts hull lower : (0 < k)%Z -> 0 < M -> IZR k < 2 ^ 52 -> 4 * M * IZR k ^ 2 < 2 ^ 52 -> 64 * M ^ 3 * 2 ^ 52 < 1 ->
  (forall p, In p pts -> on_grid k M p) -> ~ on_one_plane pts -> (5 <= length pts)%nat -> convex_hull3d lower pts hull = Ok hull.
Proof.
  intros A B C D E F G H. destruct (tiny_k k M A B E D C) as (X & Y & Z). apply (hull_tiny machine_eps pts k M); auto using eps_nonneg.
Qed.
Lemma mapM_get_in {A} (l : list A) is r : mapM (get l) is = Ok r -> incl r l.
Proof.
  revert r. induction is as [|i is IH]; intros r H; cbn in H; [injection H as <-; intros x []|]. destruct (get l i) as [a|e|] eqn:E; cbn in H; try discriminate.
  destruct (mapM (get l) is) as [t|e|]; cbn in H; try discriminate. injection H as <-. intros x [<-|X]; [|exact (IH t eq_refl x X)].
  unfold get in E. destruct (nth_error l i) as [b|] eqn:Q; cbn in E; [injection E as ->; exact (nth_error_In _ _ Q)|discriminate].
Qed.
Lemma hull3d_inputs lower pts hull r : convex_hull3d lower pts hull = Ok r -> forall p, In p r -> In p hull \/ In p pts.
Proof.
  unfold convex_hull3d, quick_hull3d. intros H p I. destruct pts as [|p0 pr]; [injection H as <-; left; exact I|]. destruct (Nat.ltb _ 5); [injection H as <-; right; exact I|].
  destruct (affine_basis _ _ _) as [[basis out]|e|]; cbn [bind] in H; try discriminate.
  assert (mapM (get (p0 :: pr)) basis = Ok r -> In p hull \/ In p (p0 :: pr)) as S1 by (intros X; right; exact (mapM_get_in _ _ _ X p I)).
  destruct basis as [|a [|b [|c [|d [|e l]]]]]; try (exact (S1 H)).
  destruct (initial_simplex _ _ _ _ _ _ _ _) as [[lo h]|e|]; cbn [bind] in H; try discriminate. destruct (create_hull _ _ _ _) as [fs|e|]; cbn [bind] in H; try discriminate.
  destruct (mapM (get (p0 :: pr)) (hull_indices fs)) as [more|e|] eqn:E; cbn [bind] in H; try discriminate. injection H as <-. apply in_app_iff in I as [I|I]; [left; exact I|right; exact (mapM_get_in _ _ _ E p I)].
Qed.
Lemma mapM_get_all {A} (l : list A) : forall idx, (forall i, In i idx -> (i < length l)%nat) -> exists r, mapM (get l) idx = Ok r /\ length r = length idx.
Proof.
  induction idx as [|i idx IH]; intros B; cbn [mapM]; [exists []; auto|]. assert (i < length l)%nat as Bi by (apply B; left; reflexivity).
  destruct l as [|d l]; [cbn in Bi; lia|]. rewrite (get_ok (d :: l) i d Bi). cbn [bind]. destruct (IH (fun j J => B j (or_intror J))) as (r & E & L). rewrite E. cbn [bind]. eexists. split; [reflexivity|cbn; rewrite L; reflexivity].
Qed.
Lemma hull3d_flat lower pts hull : on_one_plane pts -> (5 <= length pts)%nat ->
  exists found, convex_hull3d lower pts hull = Ok found /\ (length found <= 3)%nat /\ incl found pts.
Proof.
  intros (nv & h & NZ & PL) N5. assert (0 <= machine_eps) as E0 by (unfold machine_eps; apply Rlt_le, Rinv_0_lt_compat, pow_lt; lra).
  destruct (flat_basis machine_eps pts nv h E0 NZ PL ltac:(lia)) as (basis & out & E & BO & L).
  destruct (mapM_get_all pts basis) as (r & ER & LR); [intros i I; apply (basis_in pts basis out i BO), in_or_app; left; exact I|].
  exists r. split; [|split; [lia|intros p I; exact (mapM_get_in _ _ _ ER p I)]].
  unfold convex_hull3d, quick_hull3d. destruct pts as [|p0 pr] eqn:EP; [cbn in N5; lia|]. rewrite <- EP in *. clear EP.
  destruct (Nat.ltb_spec (length pts) 5); [lia|]. rewrite E. cbn [bind].
  destruct basis as [|a [|b [|c [|d l]]]]; cbn in L; try lia; exact ER.
Qed.
