(** Surface-surface intersection: the pieces, the tests and what is reported. *)
From Coq Require Import List ZArith QArith Qcanon Bool Lia Lqa.
From Verif Require Import Base BaseFacts LoopFacts ModelVec ModelAabb SpecAabb ProofAabb ModelNurbs ModelSurface ModelBoundary ModelGjk ModelCsx ModelSsx
  SpecNurbs SpecCurve SpecSurface SpecCcx SpecGjk SpecCsx SpecBoundary SpecSsx
  ProofBspline ProofNurbs ProofCurve ProofNurbsTop ProofMinimize ProofDecompose ProofGjk ProofBoundary
  ProofSurfaceSums ProofSurface ProofSurfaceOps ProofSurfaceTop ProofCsxPieces ProofCsx ProofCsxTop.
Import ListNotations.
Open Scope Qc_scope.

(** ** Pieces *)
Definition never (_ : Qc) : Prop := False.
Definition piece (s q : nsurf) (r : rect) : Prop :=
  spiece s q (ulo r) (uhi r) (vlo r) (vhi r) /\
  cut_down never (fst (ns_iu s)) (snd (ns_iu s)) (ulo r) (uhi r) /\ cut_down never (fst (ns_iv s)) (snd (ns_iv s)) (vlo r) (vhi r).

Lemma piece_start s : halvable s -> piece s s (rect_of s).
Proof. intros H. destruct (spiece_start _ _ _ H) as (_ & _ & S & _). split; [exact S|]. split; apply cut_none. Qed.

Lemma piece_rect s q r : piece s q r -> ns_iu q = (ulo r, uhi r) /\ ns_iv q = (vlo r, vhi r) /\ ulo r < uhi r /\ vlo r < vhi r.
Proof. intros (S & _). exact (spiece_interval _ _ _ _ _ _ S). Qed.

Lemma piece_part s q r : halvable s -> piece s q r -> part_over q s r.
Proof.
  intros H P. destruct (piece_rect _ _ _ P) as (EU & EV & LU & LV). pose proof (piece_start s H) as P0.
  destruct (piece_rect _ _ _ P0) as (_ & _ & LU0 & LV0). cbn [ulo uhi vlo vhi rect_of] in LU0, LV0.
  destruct P as (S & D1 & D2). destruct (cut_inside _ _ _ _ _ D1 LU0) as (A1 & A2 & _). destruct (cut_inside _ _ _ _ _ D2 LV0) as (B1 & B2 & _).
  split; [|split].
  - destruct S as (n & m & G & E1 & E2 & W & I & K & L & HE). exists n, m.
    destruct (kpiece_ends _ _ _ _ _ _ K) as (X1 & _). destruct (kpiece_ends _ _ _ _ _ _ L) as (X2 & _).
    destruct K as (_ & _ & _ & K4 & _). destruct L as (_ & _ & _ & L4 & _). repeat (split; [assumption|]). exact HE.
  - unfold rect_of. rewrite EU, EV. destruct r; reflexivity.
  - unfold rect_inside, rect_of. cbn [ulo uhi vlo vhi]. auto.
Qed.

Lemma piece_subdivide s q r : halvable s -> piece s q r ->
  let um := (ulo r + uhi r) * qc 1 2 in let vm := (vlo r + vhi r) * qc 1 2 in
  ns_subdivide q = Throw EInvalidArgument \/
  (qc 2 1 * tol7 < uhi r - ulo r /\ exists a b c d, ns_subdivide q = Ok (a, b, c, d) /\
     piece s a (Rect (ulo r) um (vlo r) vm) /\ piece s b (Rect (ulo r) um vm (vhi r)) /\
     piece s c (Rect um (uhi r) (vlo r) vm) /\ piece s d (Rect um (uhi r) vm (vhi r))).
Proof.
  intros H P um vm. destruct (piece_rect _ _ _ P) as (EU & EV & LU & LV). destruct P as (S & D1 & D2).
  destruct (spiece_start _ _ _ H) as (P1 & P2 & _ & CL1 & CL2).
  assert (ulo r < um /\ um < uhi r) as (U1 & U2) by (unfold um; split; qc_lra).
  assert (vlo r < vm /\ vm < vhi r) as (V1 & V2) by (unfold vm; split; qc_lra).
  assert (cut_at never (ulo r) (uhi r) um) as CU by (split; [exact U1|]; split; [exact U2|left; reflexivity]).
  assert (cut_at never (vlo r) (vhi r) vm) as CV by (split; [exact V1|]; split; [exact V2|left; reflexivity]).
  unfold ns_subdivide. rewrite EU, EV. cbn [fst snd].
  replace (qc 1 2 * (uhi r + ulo r)) with um by (unfold um; ring). replace (qc 1 2 * (vhi r + vlo r)) with vm by (unfold vm; ring).
  destruct (spiece_subdivide s q (ulo r) (uhi r) (vlo r) (vhi r) um vm) as [[E _]|(A1 & A2 & A3 & A4 & a & b & c & d & E & Q1 & Q2 & Q3 & Q4)];
    try assumption; try (apply Qclt_le_weak; assumption); [apply CL1; assumption|apply CL2; assumption|left; exact E|].
  right. split; [qc_lra|]. exists a, b, c, d. split; [exact E|].
  pose proof (cut_left _ _ _ _ _ _ D1 CU). pose proof (cut_right _ _ _ _ _ _ D1 CU).
  pose proof (cut_left _ _ _ _ _ _ D2 CV). pose proof (cut_right _ _ _ _ _ _ D2 CV).
  unfold piece. cbn [ulo uhi vlo vhi]. auto 10.
Qed.

(** the points of a piece and its box *)
Lemma piece_eval s q r u v : piece s q r -> in_rect r u v -> exists p, ns_evaluate q u v = Ok p /\ ns_evaluate s u v = Ok p.
Proof. intros ((n & m & _ & _ & _ & _ & _ & _ & _ & HE) & _) (A & B & C & D). apply HE; assumption. Qed.
Lemma piece_in_surf s q r : piece s q r -> exists n m, good_surf q n m /\ positive_surf q /\ forall u v, in_rect r u v -> in_surf q n m u v.
Proof.
  intros ((n & m & G & _ & _ & W & _ & K & L & _) & _). exists n, m. split; [exact G|]. split; [exact W|].
  destruct (kpiece_ends _ _ _ _ _ _ K) as (E1 & _). destruct (kpiece_ends _ _ _ _ _ _ L) as (F1 & _).
  destruct K as (_ & _ & _ & E2 & _). destruct L as (_ & _ & _ & F2 & _).
  intros u v (A & B & C & D). split; split; rewrite ?E1, ?F1, ?E2, ?F2; assumption.
Qed.
Lemma piece_bbox s q r : piece s q r -> exists b, ns_bbox_of q = Ok b /\
  forall u v p, in_rect r u v -> ns_evaluate s u v = Ok p -> inside b p.
Proof.
  intros P. destruct (piece_in_surf _ _ _ P) as (n & m & G & W & D). destruct (bbox_top q n m G W) as (b & E & H & _).
  exists b. split; [exact E|]. intros u v p R EP. destruct (H u v (D u v R)) as (pt & E1 & I1).
  destruct (piece_eval _ _ _ _ _ P R) as (p' & E2 & E3). assert (pt = p) as -> by congruence. exact I1.
Qed.

(** ** A point of the surface lies in the hull of the flattened control points *)
Lemma qsum_flat (f : nat -> nat -> Qc) b : forall a, qsum (fun k => f (k / S b)%nat (k mod S b)%nat) (a * S b) = qsum (fun i => qsum (f i) (S b)) a.
Proof.
  induction a as [|a IH]; [reflexivity|]. replace (S a * S b)%nat with (a * S b + S b)%nat by lia.
  rewrite qsum_split. rewrite IH. change (qsum (fun i => qsum (f i) (S b)) (S a)) with (qsum (fun i => qsum (f i) (S b)) a + qsum (f a) (S b)). f_equal.
  apply qsum_ext. intros i Hi. replace (a * S b + i)%nat with (i + a * S b)%nat by lia.
  rewrite Nat.div_add by lia. rewrite Nat.div_small by lia. rewrite Nat.mod_add by lia. rewrite Nat.mod_small by lia. reflexivity.
Qed.

Lemma flat3d_hull q n m u v : good_surf q n m -> positive_surf q -> in_surf q n m u v ->
  exists l p, flat3d q = Ok l /\ l <> [] /\ ns_evaluate q u v = Ok p /\ in_hull3 l p.
Proof.
  intros G W D. pose proof G as (_ & _ & _ & _ & VU & VV & _). pose proof D as (DU & DV).
  pose proof (positive_cp q n m G W) as PC. pose proof (tensor_weight_pos q n m u v G D W) as TW.
  rewrite (evaluate_positive_surf q n m u v G D W).
  unfold flat3d. rewrite (flat_points_ok _ n m G). cbn [bind].
  rewrite (mapM_map _ affine).
  2:{ intros x Hx. apply to_vec3_affine. apply in_map_iff in Hx. destruct Hx as (k & <- & Hk). apply in_seq in Hk. apply PC.
      - apply Nat.div_lt_upper_bound; lia.
      - apply Nat.mod_upper_bound. lia. }
  rewrite map_map. eexists. eexists. split; [reflexivity|]. split; [intros E; apply map_eq_nil in E; discriminate|]. split; [reflexivity|].
  set (N := fun i j => basis_at (ns_ku q) n (ns_du q) u i * basis_at (ns_kv q) m (ns_dv q) v j).
  set (T := tensor ww q n m u v) in *.
  assert (T <> 0) as NZ by (intros E; rewrite E in TW; discriminate TW).
  assert (0 <= / T) as IT by (apply Qclt_le_weak, Qcinv_pos; exact TW).
  assert (forall i j, 0 <= N i j) as NN by (intros i j; apply ProofMinimize.Qcmul_nonneg; apply basis_at_nonneg; assumption).
  assert (forall (c : vec4 -> Qc) (d : vec3 -> Qc), (forall x, 0 < ww x -> ww x * d (affine x) = c x) -> 
    qsum (fun k => (if (k <? S n * S m)%nat then N (k / S m)%nat (k mod S m)%nat * ww (cp (ns_cps q) (k / S m) (k mod S m)) * / T else 0) *
      d (pt3 (map (fun k => affine (cp (ns_cps q) (k / S m) (k mod S m))) (seq 0 (S n * S m))) k)) (S n * S m) = tensor c q n m u v / T) as SUM.
  { intros c d HCD.
    rewrite (qsum_ext _ (fun k => (fun i j => / T * (N i j * c (cp (ns_cps q) i j))) (k / S m)%nat (k mod S m)%nat)).
    - etransitivity; [apply (qsum_flat (fun i j => / T * (N i j * c (cp (ns_cps q) i j))) m (S n))|]. unfold Qcdiv. rewrite Qcmult_comm. unfold tensor.
      rewrite (qsum_ext _ (fun i => / T * qsum (fun j => N i j * c (cp (ns_cps q) i j)) (S m))).
      + rewrite qsum_scale. reflexivity.
      + intros i Hi. apply qsum_scale.
    - intros k Hk. apply Nat.ltb_lt in Hk as Hk'. rewrite Hk'. unfold pt3.
      rewrite (nth_indep _ _ (affine (cp (ns_cps q) (0 / S m) (0 mod S m)))) by (rewrite map_length, seq_length; exact Hk).
      rewrite (map_nth (fun k => affine (cp (ns_cps q) (k / S m) (k mod S m)))). rewrite seq_nth by exact Hk. cbn [plus].
      assert (k / S m < S n)%nat as K1 by (apply Nat.div_lt_upper_bound; lia). assert (k mod S m < S m)%nat as K2 by (apply Nat.mod_upper_bound; lia).
      rewrite <- (HCD _ (PC _ _ K1 K2)). ring. }
  assert (length (map (fun k => affine (cp (ns_cps q) (k / S m) (k mod S m))) (seq 0 (S n * S m))) = (S n * S m)%nat) as LEN by (rewrite map_length, seq_length; reflexivity).
  exists (fun k => if (k <? S n * S m)%nat then N (k / S m)%nat (k mod S m)%nat * ww (cp (ns_cps q) (k / S m) (k mod S m)) * / T else 0).
  rewrite LEN. split; [|split; [|split; [|split]]].
  - intros k. destruct (k <? S n * S m)%nat eqn:E; [|apply Qcle_refl]. apply Nat.ltb_lt in E.
    assert (k / S m < S n)%nat as K1 by (apply Nat.div_lt_upper_bound; lia). assert (k mod S m < S m)%nat as K2 by (apply Nat.mod_upper_bound; lia).
    apply ProofMinimize.Qcmul_nonneg; [|exact IT]. apply ProofMinimize.Qcmul_nonneg; [apply NN|]. apply Qclt_le_weak. apply PC; assumption.
  - rewrite (qsum_ext _ (fun k => (if (k <? S n * S m)%nat then N (k / S m)%nat (k mod S m)%nat * ww (cp (ns_cps q) (k / S m) (k mod S m)) * / T else 0) *
      (fun _ : vec3 => 1) (pt3 (map (fun k => affine (cp (ns_cps q) (k / S m) (k mod S m))) (seq 0 (S n * S m))) k))) by (intros; ring).
    rewrite (SUM ww (fun _ => 1)) by (intros; ring). fold T. field. exact NZ.
  - symmetry. cbn [surf_point vx]. apply SUM. intros x Hx. cbn [affine vx]. field. intros E; rewrite E in Hx; discriminate Hx.
  - symmetry. cbn [surf_point vy]. apply SUM. intros x Hx. cbn [affine vy]. field. intros E; rewrite E in Hx; discriminate Hx.
  - symmetry. cbn [surf_point vz]. apply SUM. intros x Hx. cbn [affine vz]. field. intros E; rewrite E in Hx; discriminate Hx.
Qed.

Lemma piece_flat s q r : piece s q r -> exists l, flat3d q = Ok l /\ l <> [] /\
  forall u v p, in_rect r u v -> ns_evaluate s u v = Ok p -> in_hull3 l p.
Proof.
  intros P. destruct (piece_in_surf _ _ _ P) as (n & m & G & W & D). destruct (piece_rect _ _ _ P) as (_ & _ & LU & LV).
  destruct (flat3d_hull q n m (ulo r) (vlo r) G W) as (l & _ & E & NE & _ & _).
  { apply D. split; [apply Qcle_refl|]. split; [apply Qclt_le_weak; exact LU|]. split; [apply Qcle_refl|apply Qclt_le_weak; exact LV]. }
  exists l. split; [exact E|]. split; [exact NE|]. intros u v p R EP.
  destruct (flat3d_hull q n m u v G W (D u v R)) as (l' & p' & E1 & _ & E2 & HH).
  destruct (piece_eval _ _ _ _ _ P R) as (p'' & E3 & E4). assert (l' = l) by congruence. assert (p' = p) by congruence. subst. exact HH.
Qed.

(** ** The boxes *)
Lemma inside_six b p : inside b p -> (vx (bmin b) <= vx p /\ vx p <= vx (bmax b)) /\ (vy (bmin b) <= vy p /\ vy p <= vy (bmax b)) /\ (vz (bmin b) <= vz p /\ vz p <= vz (bmax b)).
Proof. intros H. split; [exact (H AX)|]. split; [exact (H AY)|exact (H AZ)]. Qed.
Lemma intersection_none b1 b2 p : aabb_intersection b1 b2 = None -> inside b1 p -> inside b2 p -> False.
Proof.
  unfold aabb_intersection. destruct (aabb_intersects b1 b2) eqn:E; [discriminate|]. intros _ A B.
  assert (aabb_intersects b1 b2 = true); [|congruence]. unfold aabb_intersects. apply inside_six in A, B. destruct A as ((A1 & A2) & (A3 & A4) & (A5 & A6)). destruct B as ((B1 & B2) & (B3 & B4) & (B5 & B6)).
  rewrite !andb_true_iff. repeat split; qcb; eapply Qcle_trans; eassumption.
Qed.
Lemma tiny_close tol b1 b2 b s1 s2 p : tiny tol b1 = true -> tiny tol b2 = true -> aabb_intersection b1 b2 = Some b ->
  inside b1 p \/ inside b2 p -> close tol p (sp_xyz (middle_point s1 s2 b1 b2)).
Proof.
  unfold tiny, aabb_intersection, aabb_intersects. destruct b1 as [[a1 a2 a3] [a4 a5 a6]]. destruct b2 as [[c1 c2 c3] [c4 c5 c6]]. destruct p as [x y z].
  cbn [bmin bmax vx vy vz v3sub]. rewrite !andb_true_iff. intros ((X1 & X2) & X3) ((Y1 & Y2) & Y3).
  match goal with |- context [if ?c then _ else _] => destruct c eqn:E; [|discriminate] end. intros _. rewrite !andb_true_iff in E.
  destruct E as (((((E1 & E2) & E3) & E4) & E5) & E6). qcb. unfold close, middle_point. cbn [bmin bmax vx vy vz sp_xyz v3scale v3add]. intros H.
  assert ((a1 <= x <= a4 /\ a2 <= y <= a5 /\ a3 <= z <= a6) \/ (c1 <= x <= c4 /\ c2 <= y <= c5 /\ c3 <= z <= c6)) as H' by (destruct H as [H|H]; apply inside_six in H; [left|right]; exact H).
  clear H.
  assert (forall lo hi lo' hi' t, hi - lo <= tol -> hi' - lo' <= tol -> lo <= hi' -> lo' <= hi -> (lo <= t /\ t <= hi) \/ (lo' <= t /\ t <= hi') ->
    Qcabs (t - (lo + hi + lo' + hi') * qc 1 4) <= tol) as K.
  { clear. intros lo hi lo' hi' t A B C D H. destruct (Qcabs_cases (t - (lo + hi + lo' + hi') * qc 1 4)) as [[_ ->]|[_ ->]]; destruct H as [[H1 H2]|[H1 H2]]; qc_lra. }
  split; [|split]; apply K; try assumption; destruct H' as [(H1 & H2 & H3)|(H1 & H2 & H3)]; auto.
Qed.
Lemma middle_in r : ulo r < uhi r -> vlo r < vhi r -> in_rect r (middle (ulo r, uhi r)) (middle (vlo r, vhi r)).
Proof. intros A B. unfold in_rect, middle. cbn [fst snd]. repeat split; qc_lra. Qed.

(** ** The loops *)
Lemma inner_ok (R : ssx_out -> ssx_out -> Prop) rec a : (forall o, R o o) -> (forall o1 o2 o3, R o1 o2 -> R o2 o3 -> R o1 o3) ->
  forall bs out out', (forall b o o', In b bs -> rec a b o = Some (Ok o') -> R o o') ->
  inner_loop rec a bs out = Some (Ok out') ->
  R out out' /\ forall b, In b bs -> exists o o', rec a b o = Some (Ok o') /\ R out o /\ R o' out'.
Proof.
  intros RR RT. induction bs as [|b rest IH]; intros out out' HR; cbn [inner_loop].
  - intros E. assert (out = out') as -> by congruence. split; [apply RR|]. intros b [].
  - destruct (rec a b out) as [[o| |]|] eqn:E; cbn [andthen lift]; try discriminate. intros E'.
    pose proof (HR b out o (or_introl eq_refl) E) as R1. destruct (IH o out') as (R2 & C); [intros; eapply HR; [right|]; eassumption|exact E'|].
    split; [eapply RT; eassumption|]. intros b' [<-|Hb].
    + exists out, o. split; [exact E|]. split; [apply RR|exact R2].
    + destruct (C b' Hb) as (o1 & o2 & A & B & D). exists o1, o2. split; [exact A|]. split; [eapply RT; eassumption|exact D].
Qed.
Lemma outer_ok (R : ssx_out -> ssx_out -> Prop) rec bs : (forall o, R o o) -> (forall o1 o2 o3, R o1 o2 -> R o2 o3 -> R o1 o3) ->
  forall al out out', (forall a b o o', In a al -> In b bs -> rec a b o = Some (Ok o') -> R o o') ->
  outer_loop rec al bs out = Some (Ok out') ->
  R out out' /\ forall a b, In a al -> In b bs -> exists o o', rec a b o = Some (Ok o') /\ R out o /\ R o' out'.
Proof.
  intros RR RT. induction al as [|a rest IH]; intros out out' HR; cbn [outer_loop].
  - intros E. assert (out = out') as -> by congruence. split; [apply RR|]. intros a b [].
  - destruct (inner_loop rec a bs out) as [[o| |]|] eqn:E; cbn [andthen lift]; try discriminate. intros E'.
    destruct (inner_ok R rec a RR RT bs out o) as (R1 & C1); [intros; eapply HR; [left; reflexivity| |]; eassumption|exact E|].
    destruct (IH o out') as (R2 & C2); [intros; eapply HR; [right| |]; eassumption|exact E'|].
    split; [eapply RT; eassumption|]. intros a' b [<-|Ha] Hb.
    + destruct (C1 b Hb) as (o1 & o2 & A & B & D). exists o1, o2. split; [exact A|]. split; [exact B|eapply RT; eassumption].
    + destruct (C2 a' b Ha Hb) as (o1 & o2 & A & B & D). exists o1, o2. split; [exact A|]. split; [eapply RT; eassumption|exact D].
Qed.

Lemma extends_refl P Q out : extends P Q out out.
Proof. exists [], []. rewrite !app_nil_r. auto. Qed.
Lemma extends_trans P Q o1 o2 o3 : extends P Q o1 o2 -> extends P Q o2 o3 -> extends P Q o1 o3.
Proof.
  intros (a & b & A1 & A2 & A3 & A4) (c & d & B1 & B2 & B3 & B4). exists (a ++ c), (b ++ d).
  rewrite B1, B2, A1, A2, !app_assoc. split; [reflexivity|]. split; [reflexivity|]. split; apply Forall_app; auto.
Qed.

(** one call, unfolded *)
Section Detect.
Variable csx : ncurve -> nsurf -> Qc -> res (list (vec3 * (Qc * Qc * Qc))).
Variable apart : list vec3 -> list vec3 -> res bool.
Variable sph : list vec3 -> list vec3 -> res bool.
Variable tol : Qc.

Inductive step (rec : nsurf * nsurf -> nsurf * nsurf -> ssx_out -> option (res ssx_out)) (s1 g1 s2 g2 : nsurf) (b1 b2 : aabb) (p1 p2 : list vec3) (out : ssx_out) : ssx_out -> Prop :=
| step_far : aabb_intersection b1 b2 = None -> step rec s1 g1 s2 g2 b1 b2 p1 p2 out out
| step_tiny : forall b, aabb_intersection b1 b2 = Some b -> tiny tol b1 = true -> tiny tol b2 = true ->
    step rec s1 g1 s2 g2 b1 b2 p1 p2 out (SO (so_patches out) (so_points out ++ [middle_point s1 s2 b1 b2]))
| step_thin : forall b, aabb_intersection b1 b2 = Some b -> thin tol b = true -> step rec s1 g1 s2 g2 b1 b2 p1 p2 out out
| step_apart : apart p1 p2 = Ok true -> step rec s1 g1 s2 g2 b1 b2 p1 p2 out out
| step_simple : forall out', process_simple csx tol s1 s2 out = Ok out' -> step rec s1 g1 s2 g2 b1 b2 p1 p2 out out'
| step_rec : forall out' s11 s12 s13 s14 s21 s22 s23 s24 g11 g12 g13 g14 g21 g22 g23 g24,
    ns_subdivide s1 = Ok (s11, s12, s13, s14) -> ns_subdivide s2 = Ok (s21, s22, s23, s24) ->
    ns_subdivide g1 = Ok (g11, g12, g13, g14) -> ns_subdivide g2 = Ok (g21, g22, g23, g24) ->
    outer_loop rec [(s11, g11); (s12, g12); (s13, g13); (s14, g14)] [(s21, g21); (s22, g22); (s23, g23); (s24, g24)] out = Some (Ok out') ->
    step rec s1 g1 s2 g2 b1 b2 p1 p2 out out'.

Lemma detect_step f s1 g1 s2 g2 b1 b2 p1 p2 out out' : ns_bbox_of s1 = Ok b1 -> ns_bbox_of s2 = Ok b2 -> flat3d s1 = Ok p1 -> flat3d s2 = Ok p2 ->
  detect csx apart sph tol (S f) (s1, g1) (s2, g2) out = Some (Ok out') ->
  step (detect csx apart sph tol f) s1 g1 s2 g2 b1 b2 p1 p2 out out'.
Proof.
  intros B1 B2 P1 P2. cbn [detect]. rewrite B1, B2, P1, P2. cbn [lift].
  destruct (aabb_intersection b1 b2) as [b|] eqn:EI.
  2:{ intros E. assert (out = out') as <- by congruence. apply step_far. exact EI. }
  destruct (tiny tol b1 && tiny tol b2) eqn:ET.
  { apply andb_true_iff in ET as (T1 & T2). intros E. injection E as <-. eapply step_tiny; eassumption. }
  destruct (thin tol b) eqn:EH.
  { intros E. assert (out = out') as <- by congruence. eapply step_thin; eassumption. }
  destruct (apart p1 p2) as [[|]| |] eqn:EA; cbn [lift]; try discriminate.
  { intros E. assert (out = out') as <- by congruence. apply step_apart. exact EA. }
  destruct (gauss_separable sph g1 g2) as [[|]| |] eqn:EG; cbn [lift]; try discriminate.
  { intros E. apply step_simple. congruence. }
  destruct (ns_subdivide s1) as [[[[s11 s12] s13] s14]| |] eqn:E1; cbn [lift]; try discriminate.
  destruct (ns_subdivide s2) as [[[[s21 s22] s23] s24]| |] eqn:E2; cbn [lift]; try discriminate.
  destruct (ns_subdivide g1) as [[[[g11 g12] g13] g14]| |] eqn:E3; cbn [lift]; try discriminate.
  destruct (ns_subdivide g2) as [[[[g21 g22] g23] g24]| |] eqn:E4; cbn [lift]; try discriminate.
  intros E. eapply step_rec; eassumption.
Qed.

Lemma process_ok s1 s2 out out' : process_simple csx tol s1 s2 out = Ok out' ->
  exists ixs, find_boundary_intersections csx s1 s2 [] tol = Ok ixs /\
    ((length ixs < 2)%nat /\ out' = out \/ exists a b l, ixs = a :: l ++ [b] /\ out' = SO (so_patches out ++ [(a, b)]) (so_points out)).
Proof.
  unfold process_simple. destruct (find_boundary_intersections csx s1 s2 [] tol) as [ixs| |] eqn:E; cbn [bind]; try discriminate.
  intros H. exists ixs. split; [reflexivity|]. destruct (Nat.leb_spec 2 (length ixs)) as [L|L].
  - right. destruct ixs as [|a l]; [cbn in L; lia|]. destruct (exists_last (l := l)) as (l' & b & ->); [intros ->; cbn in L; lia|].
    exists a, b, l'. split; [reflexivity|].
    assert (nth_error (a :: l' ++ [b]) (length (a :: l' ++ [b]) - 1) = Some b) as N.
    { cbn [length]. rewrite app_length. cbn [length]. replace (S (length l' + 1) - 1)%nat with (S (length l')) by lia. cbn [nth_error].
      rewrite nth_error_app2 by lia. rewrite Nat.sub_diag. reflexivity. }
    unfold get in H. rewrite N in H. cbn [nth_error of_option bind] in H. congruence.
  - left. split; [exact L|congruence].
Qed.

Variables (s1 s2 : nsurf).
Hypothesis H1 : halvable s1.
Hypothesis H2 : halvable s2.

Notation ext := (extends (true_patch csx tol s1 s2) (true_point tol s1 s2)).

Lemma thin_overlap_of q1 q2 b1 b2 b : ns_bbox_of q1 = Ok b1 -> ns_bbox_of q2 = Ok b2 -> aabb_intersection b1 b2 = Some b -> thin tol b = true -> thin_overlap tol q1 q2.
Proof.
  intros A B C D. exists b1, b2, b. split; [exact A|]. split; [exact B|]. split; [exact C|]. cbv zeta.
  unfold thin, aabb_volume in D. rewrite !orb_true_iff in D. cbn [vx vy vz v3sub] in D.
  assert (forall x, (Qcabs x <=? tol) = true -> x <= tol) as K by (intros x; intros E; qcb; destruct (Qcabs_cases x) as [[? Q]|[? Q]]; rewrite Q in E; qc_lra).
  destruct D as [[[D|D]|D]|D]; [left; qcb; exact D|right; left; apply K; exact D|right; right; left; apply K; exact D|right; right; right; apply K; exact D].
Qed.

Lemma tiny_true q1 q2 r1 r2 b1 b2 b : piece s1 q1 r1 -> piece s2 q2 r2 -> ns_bbox_of q1 = Ok b1 -> ns_bbox_of q2 = Ok b2 -> aabb_intersection b1 b2 = Some b ->
  tiny tol b1 = true -> tiny tol b2 = true -> 
  let x := middle_point q1 q2 b1 b2 in in_rect r1 (fst (sp_uv1 x)) (snd (sp_uv1 x)) /\ in_rect r2 (fst (sp_uv2 x)) (snd (sp_uv2 x)) /\ true_point tol s1 s2 x.
Proof.
  intros P1 P2 B1 B2 BI T1 T2 x.
  destruct (piece_rect _ _ _ P1) as (EU1 & EV1 & LU1 & LV1). destruct (piece_rect _ _ _ P2) as (EU2 & EV2 & LU2 & LV2).
  pose proof (piece_part _ _ _ H1 P1) as (_ & _ & I1). pose proof (piece_part _ _ _ H2 P2) as (_ & _ & I2).
  assert (in_rect r1 (fst (sp_uv1 x)) (snd (sp_uv1 x))) as R1 by (unfold x, middle_point; cbn [sp_uv1 fst snd]; rewrite EU1, EV1; apply middle_in; assumption).
  assert (in_rect r2 (fst (sp_uv2 x)) (snd (sp_uv2 x))) as R2 by (unfold x, middle_point; cbn [sp_uv2 fst snd]; rewrite EU2, EV2; apply middle_in; assumption).
  split; [exact R1|]. split; [exact R2|].
  destruct (piece_eval _ _ _ _ _ P1 R1) as (a & _ & EA). destruct (piece_eval _ _ _ _ _ P2 R2) as (c & _ & EC).
  destruct (piece_bbox _ _ _ P1) as (b1' & B1' & IN1). destruct (piece_bbox _ _ _ P2) as (b2' & B2' & IN2).
  assert (b1' = b1) as -> by congruence. assert (b2' = b2) as -> by congruence.
  assert (close tol a (sp_xyz x)) as C1 by (eapply tiny_close; try eassumption; left; eapply IN1; eassumption).
  assert (close tol c (sp_xyz x)) as C2 by (eapply tiny_close; try eassumption; right; eapply IN2; eassumption).
  destruct R1 as (R11 & R12 & R13 & R14). destruct R2 as (R21 & R22 & R23 & R24). destruct I1 as (I11 & I12 & I13 & I14). destruct I2 as (I21 & I22 & I23 & I24).
  cbn [rect_of ulo uhi vlo vhi] in *. unfold true_point, within.
  repeat split; try (eapply Qcle_trans; eassumption). exists a, c. auto.
Qed.

Lemma boundary_of q1 q2 ixs p : find_boundary_intersections csx q1 q2 [] tol = Ok ixs -> In p ixs -> boundary_hit csx tol q1 q2 p.
Proof. intros E I. destruct (find_sound _ _ _ _ _ _ E p I) as [[]|[A|A]]; [left|right]; exact A. Qed.

Lemma detect_sound : forall f q1 g1 q2 g2 r1 r2 out out', piece s1 q1 r1 -> piece s2 q2 r2 ->
  detect csx apart sph tol f (q1, g1) (q2, g2) out = Some (Ok out') -> ext out out'.
Proof.
  induction f as [|f IH]; intros q1 g1 q2 g2 r1 r2 out out' P1 P2; [discriminate|].
  destruct (piece_bbox _ _ _ P1) as (b1 & B1 & IN1). destruct (piece_bbox _ _ _ P2) as (b2 & B2 & IN2).
  destruct (piece_flat _ _ _ P1) as (l1 & F1 & _). destruct (piece_flat _ _ _ P2) as (l2 & F2 & _).
  intros E. apply (detect_step _ _ _ _ _ _ _ _ _ _ _ B1 B2 F1 F2) in E. destruct E as [E|b E T1 T2|b E T|E|out' E|out' s11 s12 s13 s14 s21 s22 s23 s24 g11 g12 g13 g14 g21 g22 g23 g24 E1 E2 E3 E4 E].
  - apply extends_refl.
  - destruct (tiny_true _ _ _ _ _ _ _ P1 P2 B1 B2 E T1 T2) as (_ & _ & T). exists [], [middle_point q1 q2 b1 b2]. cbn [so_patches so_points].
    rewrite app_nil_r. repeat split; auto.
  - apply extends_refl.
  - apply extends_refl.
  - apply process_ok in E as (ixs & E & [(_ & ->)|(a & b & l & -> & ->)]); [apply extends_refl|].
    exists [(a, b)], []. cbn [so_patches so_points]. rewrite app_nil_r. repeat split; auto. constructor; [|constructor].
    exists q1, q2, r1, r2. split; [apply piece_part; assumption|]. split; [apply piece_part; assumption|].
    split; (eapply boundary_of; [exact E|]); cbn [fst snd]; [left; reflexivity|right; apply in_app_iff; right; left; reflexivity].
  - destruct (piece_subdivide _ _ _ H1 P1) as [X|(_ & x1 & x2 & x3 & x4 & X & Q11 & Q12 & Q13 & Q14)]; [congruence|].
    destruct (piece_subdivide _ _ _ H2 P2) as [Y|(_ & y1 & y2 & y3 & y4 & Y & Q21 & Q22 & Q23 & Q24)]; [congruence|].
    rewrite E1 in X. injection X as <- <- <- <-. rewrite E2 in Y. injection Y as <- <- <- <-.
    refine (proj1 (outer_ok ext _ _ (extends_refl _ _) (extends_trans _ _) _ _ _ _ E)).
    intros [a ga] [c gc] o o' Ha Hc HO.
    assert (exists r, piece s1 a r) as (ra & Pa) by (destruct Ha as [Ha|[Ha|[Ha|[Ha|[]]]]]; injection Ha as <- <-; eauto).
    assert (exists r, piece s2 c r) as (rc & Pc) by (destruct Hc as [Hc|[Hc|[Hc|[Hc|[]]]]]; injection Hc as <- <-; eauto).
    eapply IH; eassumption.
Qed.

(** ** Completeness *)
Hypothesis HA : sound_apart apart.

Lemma accounted_ext out out' u1 v1 u2 v2 p P Q : extends P Q out out' -> accounted csx tol s1 s2 out u1 v1 u2 v2 p -> accounted csx tol s1 s2 out' u1 v1 u2 v2 p.
Proof.
  intros (np & nq & E1 & E2 & _) (q1 & q2 & r1 & r2 & A1 & A2 & A3 & A4 & A). exists q1, q2, r1, r2. repeat (split; [assumption|]).
  destruct A as [(x & I & X)|[(ixs & E & [L|(a & b & l & EL & I)])|T]].
  - left. exists x. rewrite E2. split; [apply in_app_iff; left; exact I|exact X].
  - right; left. exists ixs. auto.
  - right; left. exists ixs. split; [exact E|]. right. exists a, b, l. rewrite E1. split; [exact EL|]. apply in_app_iff; left; exact I.
  - right; right. exact T.
Qed.

Lemma detect_complete : forall f q1 g1 q2 g2 r1 r2 out out' u1 v1 u2 v2 p, piece s1 q1 r1 -> piece s2 q2 r2 ->
  in_rect r1 u1 v1 -> in_rect r2 u2 v2 -> ns_evaluate s1 u1 v1 = Ok p -> ns_evaluate s2 u2 v2 = Ok p ->
  detect csx apart sph tol f (q1, g1) (q2, g2) out = Some (Ok out') -> accounted csx tol s1 s2 out' u1 v1 u2 v2 p.
Proof.
  induction f as [|f IH]; intros q1 g1 q2 g2 r1 r2 out out' u1 v1 u2 v2 p P1 P2 R1 R2 V1 V2; [discriminate|].
  destruct (piece_bbox _ _ _ P1) as (b1 & B1 & IN1). destruct (piece_bbox _ _ _ P2) as (b2 & B2 & IN2).
  destruct (piece_flat _ _ _ P1) as (l1 & F1 & _ & HU1). destruct (piece_flat _ _ _ P2) as (l2 & F2 & _ & HU2).
  pose proof (piece_part _ _ _ H1 P1) as PP1. pose proof (piece_part _ _ _ H2 P2) as PP2.
  specialize (IN1 _ _ _ R1 V1). specialize (IN2 _ _ _ R2 V2). specialize (HU1 _ _ _ R1 V1). specialize (HU2 _ _ _ R2 V2).
  intros E. apply (detect_step _ _ _ _ _ _ _ _ _ _ _ B1 B2 F1 F2) in E. destruct E as [E|b E T1 T2|b E T|E|out' E|out' s11 s12 s13 s14 s21 s22 s23 s24 g11 g12 g13 g14 g21 g22 g23 g24 E1 E2 E3 E4 E].
  - destruct (intersection_none _ _ _ E IN1 IN2).
  - destruct (tiny_true _ _ _ _ _ _ _ P1 P2 B1 B2 E T1 T2) as (T3 & T4 & _). exists q1, q2, r1, r2. repeat (split; [assumption|]).
    left. exists (middle_point q1 q2 b1 b2). cbn [so_points]. split; [apply in_app_iff; right; left; reflexivity|].
    split; [exact T3|]. split; [exact T4|]. eapply tiny_close; try eassumption. left. exact IN1.
  - exists q1, q2, r1, r2. repeat (split; [assumption|]). right; right. eapply thin_overlap_of; eassumption.
  - exfalso. apply (HA l1 l2 E). exists p. auto.
  - apply process_ok in E as (ixs & E & X). exists q1, q2, r1, r2. repeat (split; [assumption|]). right; left. exists ixs. split; [exact E|].
    destruct X as [(L & _)|(a & b & l & -> & ->)]; [left; exact L|right]. exists a, b, l. split; [reflexivity|]. cbn [so_patches]. apply in_app_iff; right; left; reflexivity.
  - destruct (piece_subdivide _ _ _ H1 P1) as [X|(_ & x1 & x2 & x3 & x4 & X & Q11 & Q12 & Q13 & Q14)]; [congruence|].
    destruct (piece_subdivide _ _ _ H2 P2) as [Y|(_ & y1 & y2 & y3 & y4 & Y & Q21 & Q22 & Q23 & Q24)]; [congruence|].
    rewrite E1 in X. injection X as <- <- <- <-. rewrite E2 in Y. injection Y as <- <- <- <-.
    assert (forall a ga c gc o o', In (a, ga) [(s11, g11); (s12, g12); (s13, g13); (s14, g14)] -> In (c, gc) [(s21, g21); (s22, g22); (s23, g23); (s24, g24)] ->
      detect csx apart sph tol f (a, ga) (c, gc) o = Some (Ok o') -> ext o o') as ST.
    { intros a ga c gc o o' Ha Hc HO.
      assert (exists r, piece s1 a r) as (ra & Pa) by (destruct Ha as [Ha|[Ha|[Ha|[Ha|[]]]]]; injection Ha as <- <-; eauto).
      assert (exists r, piece s2 c r) as (rc & Pc) by (destruct Hc as [Hc|[Hc|[Hc|[Hc|[]]]]]; injection Hc as <- <-; eauto).
      eapply detect_sound; eassumption. }
    destruct (outer_ok ext _ _ (extends_refl _ _) (extends_trans _ _) _ _ _ (fun a b o o' => match a, b with (a, ga), (c, gc) => ST a ga c gc o o' end) E) as (_ & CO).
    assert (exists a ga ra, In (a, ga) [(s11, g11); (s12, g12); (s13, g13); (s14, g14)] /\ piece s1 a ra /\ in_rect ra u1 v1) as (a & ga & ra & Ia & Pa & Ra).
    { destruct R1 as (W1 & W2 & W3 & W4).
      destruct (Qcleb_spec u1 ((ulo r1 + uhi r1) * qc 1 2)) as [LU|LU]; destruct (Qcleb_spec v1 ((vlo r1 + vhi r1) * qc 1 2)) as [LV|LV].
      - exists s11, g11, (Rect (ulo r1) ((ulo r1 + uhi r1) * qc 1 2) (vlo r1) ((vlo r1 + vhi r1) * qc 1 2)). split; [cbn; auto|]. split; [exact Q11|]. repeat split; cbn [ulo uhi vlo vhi]; assumption.
      - exists s12, g12, (Rect (ulo r1) ((ulo r1 + uhi r1) * qc 1 2) ((vlo r1 + vhi r1) * qc 1 2) (vhi r1)). split; [cbn; auto|]. split; [exact Q12|]. repeat split; cbn [ulo uhi vlo vhi]; try assumption; apply Qclt_le_weak; (assumption || (apply Qcnot_le_lt; assumption)).
      - exists s13, g13, (Rect ((ulo r1 + uhi r1) * qc 1 2) (uhi r1) (vlo r1) ((vlo r1 + vhi r1) * qc 1 2)). split; [cbn; auto|]. split; [exact Q13|]. repeat split; cbn [ulo uhi vlo vhi]; try assumption; apply Qclt_le_weak; (assumption || (apply Qcnot_le_lt; assumption)).
      - exists s14, g14, (Rect ((ulo r1 + uhi r1) * qc 1 2) (uhi r1) ((vlo r1 + vhi r1) * qc 1 2) (vhi r1)). split; [cbn; auto|]. split; [exact Q14|]. repeat split; cbn [ulo uhi vlo vhi]; try assumption; apply Qclt_le_weak; (assumption || (apply Qcnot_le_lt; assumption)). }
    assert (exists c gc rc, In (c, gc) [(s21, g21); (s22, g22); (s23, g23); (s24, g24)] /\ piece s2 c rc /\ in_rect rc u2 v2) as (c & gc & rc & Ic & Pc & Rc).
    { destruct R2 as (W1 & W2 & W3 & W4).
      destruct (Qcleb_spec u2 ((ulo r2 + uhi r2) * qc 1 2)) as [LU|LU]; destruct (Qcleb_spec v2 ((vlo r2 + vhi r2) * qc 1 2)) as [LV|LV].
      - exists s21, g21, (Rect (ulo r2) ((ulo r2 + uhi r2) * qc 1 2) (vlo r2) ((vlo r2 + vhi r2) * qc 1 2)). split; [cbn; auto|]. split; [exact Q21|]. repeat split; cbn [ulo uhi vlo vhi]; assumption.
      - exists s22, g22, (Rect (ulo r2) ((ulo r2 + uhi r2) * qc 1 2) ((vlo r2 + vhi r2) * qc 1 2) (vhi r2)). split; [cbn; auto|]. split; [exact Q22|]. repeat split; cbn [ulo uhi vlo vhi]; try assumption; apply Qclt_le_weak; (assumption || (apply Qcnot_le_lt; assumption)).
      - exists s23, g23, (Rect ((ulo r2 + uhi r2) * qc 1 2) (uhi r2) (vlo r2) ((vlo r2 + vhi r2) * qc 1 2)). split; [cbn; auto|]. split; [exact Q23|]. repeat split; cbn [ulo uhi vlo vhi]; try assumption; apply Qclt_le_weak; (assumption || (apply Qcnot_le_lt; assumption)).
      - exists s24, g24, (Rect ((ulo r2 + uhi r2) * qc 1 2) (uhi r2) ((vlo r2 + vhi r2) * qc 1 2) (vhi r2)). split; [cbn; auto|]. split; [exact Q24|]. repeat split; cbn [ulo uhi vlo vhi]; try assumption; apply Qclt_le_weak; (assumption || (apply Qcnot_le_lt; assumption)). }
    destruct (CO _ _ Ia Ic) as (o & o' & ED & _ & X2). eapply accounted_ext; [exact X2|]. eapply IH; eassumption.
Qed.
End Detect.
