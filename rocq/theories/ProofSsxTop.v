(** Surface-surface intersection: the statements for whole surfaces. *)
From Coq Require Import List ZArith QArith Qcanon Bool Lia Lqa.
From Verif Require Import Base BaseFacts LoopFacts ModelVec ModelAabb SpecAabb ProofAabb ModelNurbs ModelSurface ModelSurface2 ModelBoundary ModelGjk ModelMonomial ModelCsx ModelSsx
  SpecNurbs SpecCurve SpecSurface SpecCcx SpecGjk SpecCsx SpecBoundary SpecSurface2 SpecSsx
  ProofBspline ProofNurbs ProofCurve ProofNurbsTop ProofMinimize ProofDecompose ProofGjk ProofBoundary
  ProofSurfaceSums ProofSurface ProofSurfaceOps ProofSurfaceTop ProofSurfaceBezier ProofCcxBezier WitnessCsx ProofCsxPieces ProofCsx ProofCsxTop ProofSsx ProofSsxEnds ProofSsxGauss.
Import ListNotations.
Open Scope Qc_scope.

(** ** SAT3D *)
Lemma loop_true A B tol : forall n simplex d r, gjk_loop A B (V3 0 0 0) tol n simplex d = Ok r -> collides r = true -> closest r = Ok (V3 0 0 0).
Proof.
  induction n; intros simplex d r; cbn [gjk_loop]; [intros [= <-] _; reflexivity|].
  destruct (support A B d) as [p| |]; cbn [bind]; try discriminate. destruct (_ <? _); [intros [= <-]; discriminate|].
  destruct (handle_simplex _ _ _) as [[[hit s'] d']| |]; cbn [bind]; try discriminate. destruct hit; [intros [= <-] _; reflexivity|]. apply IHn.
Qed.
Lemma sat3d_sound : forall hull len odd eps, 0 <= eps -> len (V3 0 0 0) = Some 0 -> covers hull -> sound_apart (sat3d hull len odd eps).
Proof.
  intros hull len odd eps He L0 HC A B. unfold sat3d. destruct (hull A) as [h1| |] eqn:E1; cbn [bind]; try discriminate. destruct (hull B) as [h2| |] eqn:E2; cbn [bind]; try discriminate.
  destruct (gjk h1 h2 [] (V3 0 0 0) eps GJK_ITERATIONS) as [r| |] eqn:E; cbn [bind]; try discriminate. intros X (p & P1 & P2).
  destruct (collides r) eqn:C.
  - assert (closest r = Ok (V3 0 0 0)) as CL.
    { revert E. unfold gjk. destruct (get h1 0); cbn [bind]; try discriminate. destruct (get h2 0); cbn [bind]; try discriminate. cbv zeta. destruct (support _ _ _); cbn [bind]; try discriminate.
      intros E. eapply loop_true; eassumption. }
    rewrite CL, L0 in X. destruct (Qcltb_spec eps 0) as [Y|]; [apply (Qcle_not_lt _ _ He Y)|discriminate].
  - apply (gjk_false _ _ _ _ _ _ _ E C). exists p. eauto.
Qed.

(** ** Parts of parts *)
Lemma part_point q s r u v : part_over q s r -> in_rect r u v -> exists p, ns_evaluate q u v = Ok p /\ ns_evaluate s u v = Ok p.
Proof. intros ((n & m & _ & _ & _ & _ & _ & _ & _ & _ & _ & H) & _) (A & B & C & D). apply H; assumption. Qed.
Lemma rect_sub r r' u v : rect_inside r r' -> in_rect r u v -> in_rect r' u v.
Proof. intros (A & B & C & D) (A' & B' & C' & D'). repeat split; eapply Qcle_trans; eassumption. Qed.
Lemma part_trans q p s r r' : part_over q p r -> part_over p s r' -> part_over q s r.
Proof.
  intros Q P. pose proof P as (P1 & P2 & P3). pose proof Q as (Q1 & Q2 & Q3). rewrite P2 in Q3. split; [|split; [exact Q2|]].
  - destruct Q1 as (n & m & G & D1 & D2 & W & IC & K1 & K2 & K3 & K4 & _). destruct P1 as (n' & m' & G' & D1' & D2' & _).
    exists n, m. split; [exact G|]. split; [congruence|]. split; [congruence|]. repeat (split; [assumption|]).
    intros u v A B C D. assert (in_rect r u v) as I by (repeat split; assumption).
    destruct (part_point _ _ _ _ _ Q I) as (x & E1 & E2). destruct (part_point _ _ _ _ _ P (rect_sub _ _ _ _ Q3 I)) as (y & E3 & E4). exists x. split; [exact E1|]. congruence.
  - destruct Q3 as (A & B & C & D). destruct P3 as (A' & B' & C' & D'). repeat split; eapply Qcle_trans; eassumption.
Qed.
Lemma in_rect_of s u v : within (ns_iu s) u -> within (ns_iv s) v -> in_rect (rect_of s) u v.
Proof. intros (A & B) (C & D). repeat split; assumption. Qed.
Lemma true_point_part tol p1 p2 s1 s2 x : part_over p1 s1 (rect_of p1) -> part_over p2 s2 (rect_of p2) -> true_point tol p1 p2 x -> true_point tol s1 s2 x.
Proof.
  intros P1 P2 (A & B & C & D & a & b & E1 & C1 & E2 & C2).
  pose proof (in_rect_of _ _ _ A B) as I1. pose proof (in_rect_of _ _ _ C D) as I2.
  destruct (part_point _ _ _ _ _ P1 I1) as (a' & X1 & Y1). destruct (part_point _ _ _ _ _ P2 I2) as (b' & X2 & Y2).
  assert (a' = a) as -> by congruence. assert (b' = b) as -> by congruence.
  destruct P1 as (_ & _ & S1). destruct P2 as (_ & _ & S2).
  destruct (rect_sub _ _ _ _ S1 I1) as (U1 & U2 & U3 & U4). destruct (rect_sub _ _ _ _ S2 I2) as (W1 & W2 & W3 & W4).
  repeat (split; [split; assumption|]). exists a, b. auto.
Qed.
Lemma true_patch_part csx tol p1 p2 s1 s2 r1 r2 x : part_over p1 s1 r1 -> part_over p2 s2 r2 -> true_patch csx tol p1 p2 x -> true_patch csx tol s1 s2 x.
Proof. intros P1 P2 (q1 & q2 & t1 & t2 & A & B & C). exists q1, q2, t1, t2. split; [eapply part_trans; eassumption|]. split; [eapply part_trans; eassumption|exact C]. Qed.
Lemma accounted_part csx tol p1 p2 s1 s2 r1 r2 out u1 v1 u2 v2 p : part_over p1 s1 r1 -> part_over p2 s2 r2 ->
  accounted csx tol p1 p2 out u1 v1 u2 v2 p -> accounted csx tol s1 s2 out u1 v1 u2 v2 p.
Proof.
  intros P1 P2 (q1 & q2 & t1 & t2 & A & B & C). exists q1, q2, t1, t2. split; [eapply part_trans; eassumption|]. split; [eapply part_trans; eassumption|exact C].
Qed.

(** ** The patches of a surface *)
Lemma gaps_at : forall l x i, gaps7 x l -> (i < length l)%nat -> nth i (x :: l) 0 < nth (S i) (x :: l) 0.
Proof.
  induction l as [|y l IH]; intros x i G H; [cbn in H; lia|]. destruct G as (A & B). destruct i.
  - cbn [nth]. assert (0 < lit_1em7) by reflexivity. qc_lra.
  - change (nth (S i) (x :: y :: l) 0) with (nth i (y :: l) 0). change (nth (S (S i)) (x :: y :: l) 0) with (nth (S i) (y :: l) 0). apply IH; [exact B|cbn in H; lia].
Qed.
Lemma gaps_cover : forall l x b t, x <= t -> t <= b -> exists i, (i <= length l)%nat /\ nth i (x :: l ++ [b]) 0 <= t /\ t <= nth (S i) (x :: l ++ [b]) 0.
Proof.
  induction l as [|y l IH]; intros x b t A B; [exists 0%nat; auto|].
  destruct (Qcleb_spec t y) as [L|L]; [exists 0%nat; cbn [app nth]; split; [lia|auto]|]. apply Qcnot_le_lt, Qclt_le_weak in L.
  destruct (IH y b t L B) as (i & I1 & I2 & I3). exists (S i). split; [cbn [length]; lia|auto].
Qed.
Lemma gaps_inside l a b i : gaps7 a (l ++ [b]) -> (i <= length l)%nat -> a <= nth i (a :: l ++ [b]) 0 /\ nth (S i) (a :: l ++ [b]) 0 <= b.
Proof.
  intros G H. split.
  - destruct i as [|i]; [apply Qcle_refl|]. cbn [nth]. apply (gaps7_le b _ _ G). apply nth_In. rewrite app_length. cbn. lia.
  - cbn [nth]. apply (gaps7_le b _ _ G). apply nth_In. rewrite app_length. cbn. lia.
Qed.
Lemma knots_ends U p a mu b : U = repeat a (p + 1) ++ runs mu ++ repeat b (p + 1) -> knot U 0 = a /\ knot U (length U - 1) = b.
Proof.
  intros ->. rewrite !Nat.add_1_r. split; [reflexivity|].
  assert (forall l, knot (repeat a (S p) ++ l ++ repeat b (S p)) (length (repeat a (S p) ++ l ++ repeat b (S p)) - 1) = b) as X; [|apply X].
  intros l. unfold knot. rewrite (nth_indep _ _ b) by (rewrite !app_length, !repeat_length; lia).
  rewrite !app_length, !repeat_length, app_assoc. rewrite app_nth2 by (rewrite app_length, repeat_length; lia). apply nth_repeat.
Qed.

Lemma decomposed s : decomposable s -> exists l, ns_decompose s = Ok l /\
  (forall q, In q l -> halvable q /\ part_over q s (rect_of q) /\
     ((ns_du s <= 4)%nat -> (ns_dv s <= 4)%nat -> exists g, gauss_map q = Ok g /\ halvable g /\ ns_iu g = (0, 1))) /\
  (forall u v, in_rect (rect_of s) u v -> exists q, In q l /\ in_rect (rect_of q) u v).
Proof.
  intros (n & m & a & mu & b & c & mv & d & G & W & IC & H1 & H2 & KU & KV).
  destruct (decompose_surface_top s n m a mu b c mv d G W IC H1 H2 KU KV) as (l & E & LN & HQ). exists l. split; [exact E|].
  destruct KU as (KU & GU & _). destruct KV as (KV & GV & _). destruct (knots_ends _ _ _ _ _ KU) as (EA & EB). destruct (knots_ends _ _ _ _ _ KV) as (EC & ED).
  assert (ns_iu s = (a, b) /\ ns_iv s = (c, d)) as (IU & IV) by (destruct IC as (-> & ->); rewrite EA, EB, EC, ED; auto).
  assert (forall i j q, (i <= length mu)%nat -> (j <= length mv)%nat ->
    SpecSurface2.bezier_patch q s (nth i (a :: map fst mu ++ [b]) 0) (nth (S i) (a :: map fst mu ++ [b]) 0) (nth j (c :: map fst mv ++ [d]) 0) (nth (S j) (c :: map fst mv ++ [d]) 0) ->
    halvable q /\ part_over q s (rect_of q) /\ rect_of q = Rect (nth i (a :: map fst mu ++ [b]) 0) (nth (S i) (a :: map fst mu ++ [b]) 0) (nth j (c :: map fst mv ++ [d]) 0) (nth (S j) (c :: map fst mv ++ [d]) 0) /\
    ((ns_du s <= 4)%nat -> (ns_dv s <= 4)%nat -> exists g, gauss_map q = Ok g /\ halvable g /\ ns_iu g = (0, 1))) as ONE.
  { intros i j q Hi Hj (KQ & LQ & C1 & C2 & P).
    pose proof (gaps_at _ _ i GU ltac:(rewrite app_length, map_length; cbn; lia)) as LU. pose proof (gaps_at _ _ j GV ltac:(rewrite app_length, map_length; cbn; lia)) as LV.
    destruct (gaps_inside (map fst mu) a b i GU ltac:(rewrite map_length; lia)) as (XU & YU). destruct (gaps_inside (map fst mv) c d j GV ltac:(rewrite map_length; lia)) as (XV & YV).
    set (lu := nth i (a :: map fst mu ++ [b]) 0) in *. set (hu := nth (S i) (a :: map fst mu ++ [b]) 0) in *. set (lv := nth j (c :: map fst mv ++ [d]) 0) in *. set (hv := nth (S j) (c :: map fst mv ++ [d]) 0) in *.
    clearbody lu hu lv hv. pose proof P as (n' & m' & G' & D1 & D2 & W' & IC' & _).
    pose proof G' as (L1 & L2 & S1 & S2 & _). assert (n' = ns_du s) as -> by lia.
    assert (m' = ns_dv s) as ->.
    { destruct (ns_cps q) as [|row rest] eqn:EQ; [cbn in L1; lia|]. specialize (L2 row (or_introl eq_refl)). specialize (C2 row (or_introl eq_refl)). lia. }
    assert (halvable q) as HQ'.
    { exists (ns_du s), (ns_dv s). split; [exact G'|]. split; [exact W'|]. split; [exact IC'|]. rewrite D1, D2, KQ, LQ. split; apply cuttable_bezier; assumption. }
    assert (rect_of q = Rect lu hu lv hv) as ER.
    { unfold rect_of. destruct IC' as (-> & ->). cbn [fst snd]. rewrite KQ, LQ, !app_length, !repeat_length.
      destruct (knot_bez lu hu (ns_du s)) as [A1 A2]. destruct (knot_bez lv hv (ns_dv s)) as [B1 B2].
      rewrite (A1 0%nat), (B1 0%nat) by lia. rewrite A2, B2 by lia. reflexivity. }
    split; [exact HQ'|]. split; [|split; [exact ER|]].
    - split; [rewrite ER; exact P|]. split; [reflexivity|]. rewrite ER. unfold rect_inside, rect_of. rewrite IU, IV. cbn [ulo uhi vlo vhi fst snd]. auto.
    - intros B4 B4'. destruct (gauss_raw q (ns_du s) (ns_dv s)) as (g & _ & _ & EG & HG & IG & _); [lia|lia| |exact S1|exact S2| |exists g; auto].
      + split; [exact L1|]. intros k Hk. apply L2, nth_In. lia.
      + intros x y Hx Hy Z. assert (0 < ww (cp (ns_cps q) x y)) as P0.
        { apply (W' (nth x (ns_cps q) [])); [apply nth_In; lia|]. apply nth_In. rewrite L2; [lia|]. apply nth_In. lia. }
        rewrite Z in P0. revert P0; vm_compute; discriminate. }
  split.
  - intros q Hq. destruct (In_nth_error _ _ Hq) as (k & Ek). assert (k < length l)%nat as Lk by (apply nth_error_Some; congruence). rewrite LN in Lk.
    set (w := S (length mv)) in *. assert (w <> 0)%nat as Nw by (unfold w; lia).
    pose proof (Nat.div_mod k w Nw) as DM. pose proof (Nat.mod_upper_bound k w Nw) as MB.
    assert (k / w <= length mu)%nat as Hi. { assert (k / w < S (length mu))%nat; [|lia]. apply Nat.div_lt_upper_bound; [exact Nw|]. rewrite Nat.mul_comm. exact Lk. }
    assert (k mod w <= length mv)%nat as Hj by (apply Nat.lt_succ_r; exact MB).
    destruct (HQ (k / w)%nat (k mod w)%nat Hi Hj) as (q' & E' & B').
    replace (k / w * w + k mod w)%nat with k in E' by (rewrite (Nat.mul_comm (k / w)); exact DM). assert (q' = q) as -> by congruence.
    destruct (ONE _ _ q Hi Hj B') as (A1 & A2 & _ & A3). auto.
  - intros u v (A & B & C & D). unfold rect_of in A, B, C, D. rewrite IU, IV in *. cbn [ulo uhi vlo vhi fst snd] in A, B, C, D.
    destruct (gaps_cover (map fst mu) a b u A B) as (i & Hi & I1 & I2). destruct (gaps_cover (map fst mv) c d v C D) as (j & Hj & J1 & J2). rewrite map_length in Hi, Hj.
    destruct (HQ i j Hi Hj) as (q & E' & B'). exists q. split; [eapply nth_error_In; exact E'|].
    destruct (ONE i j q Hi Hj B') as (_ & _ & -> & _). repeat split; assumption.
Qed.

(** ** The theorems *)
Lemma detect_sound_top : forall csx apart sph tol fuel s1 g1 s2 g2 out out', halvable s1 -> halvable s2 ->
  detect csx apart sph tol fuel (s1, g1) (s2, g2) out = Some (Ok out') ->
  extends (true_patch csx tol s1 s2) (true_point tol s1 s2) out out'.
Proof. intros csx apart sph tol fuel s1 g1 s2 g2 out out' H1 H2. eapply detect_sound; try assumption; apply piece_start; assumption. Qed.

Lemma detect_complete_top : forall csx apart sph tol fuel s1 g1 s2 g2 out out' u1 v1 u2 v2 p, halvable s1 -> halvable s2 -> sound_apart apart ->
  detect csx apart sph tol fuel (s1, g1) (s2, g2) out = Some (Ok out') -> meet_at s1 s2 u1 v1 u2 v2 p -> accounted csx tol s1 s2 out' u1 v1 u2 v2 p.
Proof.
  intros csx apart sph tol fuel s1 g1 s2 g2 out out' u1 v1 u2 v2 p H1 H2 HA E (M1 & M2 & M3 & M4).
  eapply (detect_complete csx apart sph tol s1 s2 H1 H2 HA fuel s1 g1 s2 g2); try eassumption; apply piece_start; assumption.
Qed.

Lemma find_sound_top : forall csx apart sph tol fuel s1 s2 out out', decomposable s1 -> decomposable s2 ->
  find_start csx apart sph tol fuel s1 s2 out = Some (Ok out') ->
  extends (true_patch csx tol s1 s2) (true_point tol s1 s2) out out'.
Proof.
  intros csx apart sph tol fuel s1 s2 out out' H1 H2. destruct (decomposed _ H1) as (l1 & E1 & Q1 & _). destruct (decomposed _ H2) as (l2 & E2 & Q2 & _).
  unfold find_start. rewrite E1, E2. cbn [lift]. destruct (mapM gauss_map l1) as [g1| |]; cbn [lift]; try discriminate. destruct (mapM gauss_map l2) as [g2| |]; cbn [lift]; try discriminate. intros E.
  refine (proj1 (outer_ok (extends (true_patch csx tol s1 s2) (true_point tol s1 s2)) _ _ (extends_refl _ _) (extends_trans _ _) _ _ _ _ E)).
  intros [a ga] [b gb] o o' Ha Hb HO. apply in_combine_l in Ha, Hb. destruct (Q1 a Ha) as (A1 & A2 & _). destruct (Q2 b Hb) as (B1 & B2 & _).
  destruct (detect_sound_top _ _ _ _ _ _ _ _ _ _ _ A1 B1 HO) as (np & nq & F1 & F2 & F3 & F4). exists np, nq. split; [exact F1|]. split; [exact F2|].
  split; (eapply Forall_impl; [|eassumption]); intros x Hx; [eapply true_patch_part; eassumption|eapply true_point_part; eassumption].
Qed.

Lemma mapM_len {A B} (f : A -> res B) : forall l l', mapM f l = Ok l' -> length l' = length l.
Proof.
  induction l as [|a l IH]; intros l'; cbn [mapM]; [intros [= <-]; reflexivity|]. destruct (f a); cbn [bind]; try discriminate. destruct (mapM f l) as [t| |]; cbn [bind]; try discriminate.
  intros [= <-]. cbn. rewrite (IH t eq_refl). reflexivity.
Qed.
Lemma in_combine {A B} : forall (l : list A) (l' : list B) x, length l' = length l -> In x l -> exists y, In (x, y) (combine l l').
Proof.
  induction l as [|a l IH]; intros [|b l'] x L H; try (cbn in *; lia || contradiction). destruct H as [->|H]; [exists b; left; reflexivity|].
  destruct (IH l' x ltac:(cbn in L; lia) H) as (y & Hy). exists y. right. exact Hy.
Qed.

Lemma find_complete_top : forall csx apart sph tol fuel s1 s2 out out' u1 v1 u2 v2 p, decomposable s1 -> decomposable s2 -> sound_apart apart ->
  find_start csx apart sph tol fuel s1 s2 out = Some (Ok out') -> meet_at s1 s2 u1 v1 u2 v2 p -> accounted csx tol s1 s2 out' u1 v1 u2 v2 p.
Proof.
  intros csx apart sph tol fuel s1 s2 out out' u1 v1 u2 v2 p H1 H2 HA. destruct (decomposed _ H1) as (l1 & E1 & Q1 & C1). destruct (decomposed _ H2) as (l2 & E2 & Q2 & C2).
  unfold find_start. rewrite E1, E2. cbn [lift]. destruct (mapM gauss_map l1) as [g1| |] eqn:G1; cbn [lift]; try discriminate. destruct (mapM gauss_map l2) as [g2| |] eqn:G2; cbn [lift]; try discriminate.
  intros E (M1 & M2 & M3 & M4). set (ext := extends (true_patch csx tol s1 s2) (true_point tol s1 s2)).
  assert (forall a b o o', In a (combine l1 g1) -> In b (combine l2 g2) -> detect csx apart sph tol fuel a b o = Some (Ok o') -> ext o o') as ST.
  { intros [a ga] [b gb] o o' Ha Hb HO. apply in_combine_l in Ha, Hb. destruct (Q1 a Ha) as (A1 & A2 & _). destruct (Q2 b Hb) as (B1 & B2 & _).
    destruct (detect_sound_top _ _ _ _ _ _ _ _ _ _ _ A1 B1 HO) as (np & nq & F1 & F2 & F3 & F4). exists np, nq. split; [exact F1|]. split; [exact F2|].
    split; (eapply Forall_impl; [|eassumption]); intros x Hx; [eapply true_patch_part; eassumption|eapply true_point_part; eassumption]. }
  destruct (outer_ok ext _ _ (extends_refl _ _) (extends_trans _ _) _ _ _ ST E) as (_ & CO).
  destruct (C1 _ _ M1) as (a & Ia & Ra). destruct (C2 _ _ M2) as (b & Ib & Rb).
  destruct (in_combine l1 g1 a (mapM_len _ _ _ G1) Ia) as (ga & Ja). destruct (in_combine l2 g2 b (mapM_len _ _ _ G2) Ib) as (gb & Jb).
  destruct (CO _ _ Ja Jb) as (o & o' & ED & _ & X2). eapply accounted_ext; [exact X2|].
  destruct (Q1 a Ia) as (A1 & A2 & _). destruct (Q2 b Ib) as (B1 & B2 & _). eapply accounted_part; [exact A2|exact B2|].
  eapply detect_complete_top; try eassumption. repeat (split; [assumption|]).
  destruct (part_point _ _ _ _ _ A2 Ra) as (x & X & Y). destruct (part_point _ _ _ _ _ B2 Rb) as (x' & X' & Y'). split; congruence.
Qed.

(** ** Termination *)
Lemma detect_ends_top : forall csx apart sph tol s1 g1 s2 g2 out, halvable s1 -> halvable s2 -> halvable g1 -> halvable g2 ->
  snd (ns_iu g1) - fst (ns_iu g1) <= 1 -> answers_curves csx tol -> answers_sets apart -> answers_sets sph ->
  exists r, (r = Throw EInvalidArgument \/ exists out', r = Ok out') /\
    forall fuel, (24 <= fuel)%nat -> detect csx apart sph tol fuel (s1, g1) (s2, g2) out = Some r.
Proof.
  intros csx apart sph tol s1 g1 s2 g2 out H1 H2 H3 H4 HW HC HA HS.
  destruct (detect_ended csx apart sph tol HC HA HS s1 s2 g1 g2 H1 H2 H3 H4 23 s1 s2 g1 g2 (rect_of s1) (rect_of s2) (rect_of g1) (rect_of g2) out) as [(o & E)|E];
    try (apply piece_start; assumption).
  - cbn [rect_of uhi ulo]. eapply Qcle_trans; [exact HW|]. vm_compute. discriminate.
  - exists (Ok o). split; [right; eauto|]. intros fuel Hf. eapply detect_more_le; eassumption.
  - exists (Throw EInvalidArgument). split; [left; reflexivity|]. intros fuel Hf. eapply detect_more_le; eassumption.
Qed.

Lemma find_ends_top : forall csx apart sph tol s1 s2 out, decomposable s1 -> decomposable s2 ->
  (ns_du s1 <= 4)%nat -> (ns_dv s1 <= 4)%nat -> (ns_du s2 <= 4)%nat -> (ns_dv s2 <= 4)%nat ->
  answers_curves csx tol -> answers_sets apart -> answers_sets sph ->
  exists r, (r = Throw EInvalidArgument \/ exists out', r = Ok out') /\
    forall fuel, (24 <= fuel)%nat -> find_start csx apart sph tol fuel s1 s2 out = Some r.
Proof.
  intros csx apart sph tol s1 s2 out H1 H2 B1 B2 B3 B4 HC HA HS. destruct (decomposed _ H1) as (l1 & E1 & Q1 & _). destruct (decomposed _ H2) as (l2 & E2 & Q2 & _).
  assert (forall s l, (ns_du s <= 4)%nat -> (ns_dv s <= 4)%nat -> (forall q, In q l -> halvable q /\ part_over q s (rect_of q) /\
     ((ns_du s <= 4)%nat -> (ns_dv s <= 4)%nat -> exists g, gauss_map q = Ok g /\ halvable g /\ ns_iu g = (0, 1))) ->
     exists gs, mapM gauss_map l = Ok gs /\ forall q g, In (q, g) (combine l gs) -> halvable q /\ halvable g /\ ns_iu g = (0, 1)) as GM.
  { intros s l B B'. induction l as [|q l IH]; intros Q; [exists []; split; [reflexivity|intros q g []]|].
    destruct (Q q (or_introl eq_refl)) as (A1 & _ & A3). destruct (A3 B B') as (g & EG & HG & IG). destruct IH as (gs & EM & IN); [intros; apply Q; right; assumption|].
    exists (g :: gs). cbn [mapM]. rewrite EG. cbn [bind]. rewrite EM. cbn [bind]. split; [reflexivity|]. intros q' g' [X|X]; [injection X as <- <-; auto|apply IN; exact X]. }
  destruct (GM s1 l1 B1 B2 Q1) as (g1 & G1 & I1). destruct (GM s2 l2 B3 B4 Q2) as (g2 & G2 & I2).
  unfold find_start. rewrite E1, E2. cbn [lift]. rewrite G1, G2. cbn [lift].
  assert (ended (outer_loop (detect csx apart sph tol 24) (combine l1 g1) (combine l2 g2) out)) as EN.
  { apply outer_ended. intros [a ga] [b gb] o Ha Hb. destruct (I1 _ _ Ha) as (A1 & A2 & A3). destruct (I2 _ _ Hb) as (A4 & A5 & A6).
    destruct (detect_ends_top csx apart sph tol a ga b gb o) as (r & Hr & F); try assumption.
    { rewrite A3. cbn [fst snd]. vm_compute. discriminate. }
    rewrite (F 24%nat (le_n _)). destruct Hr as [->|(o' & ->)]; [right; reflexivity|left; eauto]. }
  assert (forall r fuel, (24 <= fuel)%nat -> outer_loop (detect csx apart sph tol 24) (combine l1 g1) (combine l2 g2) out = Some r ->
    outer_loop (detect csx apart sph tol fuel) (combine l1 g1) (combine l2 g2) out = Some r) as MO.
  { intros r fuel Hf. apply outer_more. intros a b o r'. apply detect_more_le. exact Hf. }
  destruct EN as [(o & E)|E]; [exists (Ok o)|exists (Throw EInvalidArgument)]; (split; [eauto|]); intros fuel Hf; apply MO; assumption.
Qed.

(** ** Separable Gauss maps have no parallel normals *)
Lemma inverse_hull l p : in_hull3 l p -> in_hull3 (inverse_points l) (v3scale p (- (1))).
Proof.
  intros (w & W1 & W2 & W3 & W4 & W5). unfold inverse_points. exists w. rewrite map_length.
  assert (forall i, (i < length l)%nat -> pt3 (map (fun p => V3 (- vx p) (- vy p) (- vz p)) l) i = V3 (- vx (pt3 l i)) (- vy (pt3 l i)) (- vz (pt3 l i))) as H.
  { intros i Hi. unfold pt3. rewrite (nth_indep _ _ ((fun p => V3 (- vx p) (- vy p) (- vz p)) (V3 0 0 0))) by (rewrite map_length; exact Hi). exact (map_nth (fun p => V3 (- vx p) (- vy p) (- vz p)) l (V3 0 0 0) i). }
  assert (forall (f : vec3 -> Qc) x, (forall p, f (V3 (- vx p) (- vy p) (- vz p)) = - f p) -> x = qsum (fun i => w i * f (pt3 l i)) (length l) ->
    x * - (1) = qsum (fun i => w i * f (pt3 (map (fun p => V3 (- vx p) (- vy p) (- vz p)) l) i)) (length l)) as K.
  { intros f x Hf ->. rewrite Qcmult_comm, <- qsum_scale. apply qsum_ext. intros i Hi. rewrite H by exact Hi. rewrite Hf. ring. }
  split; [exact W1|]. split; [exact W2|]. cbn [v3scale vx vy vz]. split; [|split]; apply K; auto.
Qed.
Lemma separable_sound : forall sph g1 g2 n1 m1 n2 m2, sound_sphere sph -> good_surf g1 n1 m1 -> positive_surf g1 -> good_surf g2 n2 m2 -> positive_surf g2 ->
  gauss_separable sph g1 g2 = Ok true ->
  forall u1 v1 u2 v2 a b, in_surf g1 n1 m1 u1 v1 -> in_surf g2 n2 m2 u2 v2 -> ns_evaluate g1 u1 v1 = Ok a -> ns_evaluate g2 u2 v2 = Ok b -> ~ parallel a b.
Proof.
  intros sph g1 g2 n1 m1 n2 m2 HS G1 W1 G2 W2 E u1 v1 u2 v2 a b D1 D2 E1 E2 (k & K & EQ).
  destruct (flat3d_hull g1 n1 m1 u1 v1 G1 W1 D1) as (l1 & a' & F1 & _ & A' & H1). destruct (flat3d_hull g2 n2 m2 u2 v2 G2 W2 D2) as (l2 & b' & F2 & _ & B' & H2).
  assert (a' = a) by congruence. assert (b' = b) by congruence. subst a' b'. unfold gauss_separable in E. rewrite F1, F2 in E. cbn [bind] in E.
  destruct (sph l1 l2) as [[|]| |] eqn:S1; cbn [bind negb] in E; try discriminate. destruct (sph l1 (inverse_points l2)) as [[|]| |] eqn:S2; cbn [bind negb] in E; try discriminate.
  destruct (Qclt_le_dec 0 k) as [P|P].
  - exact (HS _ _ S1 a b k H1 H2 P EQ).
  - apply (HS _ _ S2 a (v3scale b (- (1))) (- k) H1 (inverse_hull _ _ H2)).
    + assert (k <> 0) by exact K. destruct (Qc_eq_dec k 0); [contradiction|]. destruct (Qcle_lt_or_eq _ _ P) as [L|L]; [qc_lra|contradiction].
    + rewrite EQ. unfold v3scale. cbn [vx vy vz]. f_equal; ring.
Qed.
