(** Proofs about the convex_hull functions and the class GaussMap. *)
From Coq Require Import List ZArith QArith Qcanon Reals Qreals Bool Lia Lqa Permutation.
From Verif Require Import Base BaseFacts LoopFacts ModelVec ModelPlane ModelPolygon ModelNurbs ModelSurface ModelMonomial ModelCsx ModelSsx ModelHull3.
From Verif Require Import SpecNurbs SpecCurve SpecSurface SpecPolygon SpecGjk SpecSurface2 SpecSsx SpecMonomial SpecHull3 ProofHull ProofBspline WitnessPolygon ProofSurface ProofSsx ProofSurfaceTop ProofSsxGauss.
Import ListNotations.
Local Open Scope Qc_scope.

Lemma find_above_in pts i p : find_above pts i = Ok p -> In p pts /\ V2 (vx p) (vy p) = i.
Proof.
  unfold find_above. destruct (find _ pts) as [q|] eqn:E; cbn [of_option]; [|discriminate]. intros H. injection H as <-.
  apply find_some in E as (I & E). apply andb_true_iff in E as (E1 & E2). split; [exact I|].
  destruct i as [a b]. cbn [ux uy] in *. revert E1 E2. destruct (Qceqb_spec a (vx q)) as [->|]; [|discriminate]. destruct (Qceqb_spec b (vy q)) as [->|]; [|discriminate]. reflexivity.
Qed.
Lemma find_above_ok pts i : In i (map (fun p => V2 (vx p) (vy p)) pts) -> exists p, find_above pts i = Ok p.
Proof.
  intros H. apply in_map_iff in H as (p & <- & I). unfold find_above. destruct (find _ pts) as [q|] eqn:E; [eexists; reflexivity|].
  exfalso. apply (find_none _ _ E) in I. cbn [ux uy] in I. destruct (Qceqb_spec (vx p) (vx p)); [|congruence]. destruct (Qceqb_spec (vy p) (vy p)); [discriminate|congruence].
Qed.
Lemma mapM_find_ok pts : forall h, incl h (map (fun p => V2 (vx p) (vy p)) pts) ->
  exists l, mapM (find_above pts) h = Ok l /\ incl l pts /\ map (fun p => V2 (vx p) (vy p)) l = h.
Proof.
  induction h as [|i h IH]; intros I.
  - exists []. repeat split. intros x [].
  - destruct (find_above_ok pts i (I i (or_introl eq_refl))) as (p & E). destruct IH as (l & E2 & I2 & M); [intros x Hx; apply I; right; exact Hx|].
    exists (p :: l). cbn [mapM]. rewrite E. cbn [bind]. rewrite E2. cbn [bind]. destruct (find_above_in _ _ _ E) as (I1 & E1). split; [reflexivity|]. split.
    + intros x [<-|Hx]; auto.
    + cbn [map]. rewrite E1, M. reflexivity.
Qed.

(** the few-points case and what never goes wrong *)
Lemma hull3_few fl sort h3 pts hull : pts <> [] -> (length pts <= 3)%nat ->
  convex_hull3 fl sort h3 pts hull = Ok (match length pts with 1%nat => POINT | 2%nat => LINE | _ => FLAT end, pts).
Proof.
  intros NE L. destruct pts as [|a [|b [|c [|d pts]]]]; [congruence| | | |cbn in L; lia]; reflexivity.
Qed.
Lemma hull3_empty fl sort h3 hull : convex_hull3 fl sort h3 [] hull = Ok (EMPTY, hull).
Proof. reflexivity. Qed.

Lemma hull3_flat fl sort h3 pts : sorts sort -> hull_finder h3 -> pts <> [] ->
  clear_position lit_1em9 (map (fun p => V2 (vx p) (vy p)) pts) -> ((3 < length pts)%nat -> not_collinear (map (fun p => V2 (vx p) (vy p)) pts)) -> over_plane pts ->
  exists k hull, convex_hull3 fl sort h3 pts [] = Ok (k, hull) /\ incl hull pts /\ forall p, In p pts -> in_hull3 hull p.
Proof.
  intros SO HF NE GP NCL (a & b & c & OP). unfold convex_hull3. destruct pts as [|p0 t] eqn:EP; [congruence|]. rewrite <- EP in *. clear EP NE p0 t.
  destruct (is_pts_coplanar fl R_EPS (map real3 pts)).
  2:{ destruct (HF pts) as (h & E & I & H). rewrite E. cbn [bind]. do 2 eexists. split; [reflexivity|]. split; assumption. }
  destruct (Nat.ltb_spec 3 (length pts)) as [L|L].
  2:{ cbn [bind]. do 2 eexists. split; [reflexivity|]. split; [apply incl_refl|]. intros p Hp. apply (In_nth _ _ (V3 0 0 0)) in Hp as (i & Hi & E).
      exists (fun j => if Nat.eqb j i then 1 else 0). split; [intros j; destruct (Nat.eqb j i); discriminate|].
      assert (forall f n, qsum (fun j => (if Nat.eqb j i then 1 else 0) * f j) n = if Nat.ltb i n then f i else 0) as Q.
      { induction n as [|n IH]; [destruct (Nat.ltb_spec i 0); [lia|reflexivity]|]. cbn [qsum]. rewrite IH. destruct (Nat.eqb_spec n i) as [->|N].
        - destruct (Nat.ltb_spec i i); [lia|]. destruct (Nat.ltb_spec i (S i)); [|lia]. ring.
        - destruct (Nat.ltb_spec i n), (Nat.ltb_spec i (S n)); try lia; ring. }
      split.
      - transitivity (qsum (fun j => (if Nat.eqb j i then 1 else 0) * (fun _ => 1) j) (length pts)); [apply qsum_ext; intros; ring|].
        rewrite Q. destruct (Nat.ltb_spec i (length pts)); [reflexivity|lia].
      - pose proof (Q (fun j => vx (pt3 pts j))) as Qx. pose proof (Q (fun j => vy (pt3 pts j))) as Qy. pose proof (Q (fun j => vz (pt3 pts j))) as Qz. cbn beta in Qx, Qy, Qz.
        rewrite Qx, Qy, Qz. destruct (Nat.ltb_spec i (length pts)); [|lia]. unfold pt3. rewrite E. repeat split. }
  set (xy := fun p => V2 (vx p) (vy p)) in *.
  destruct (hull_clear sort (map xy pts) SO) as (h & E & _ & I & H); [rewrite map_length; lia|exact GP|exact (NCL L)|]. rewrite E. cbn [bind].
  destruct (mapM_find_ok pts h I) as (l & E2 & I2 & M). rewrite E2. cbn [bind app]. do 2 eexists. split; [reflexivity|]. split; [exact I2|].
  intros p Hp. destruct (H (xy p) (in_map xy _ _ Hp)) as (w & W0 & W1 & WX & WY). change (map _ l) with (map xy l) in M.
  assert (length l = length h) as LE by (rewrite <- M, map_length; reflexivity).
  assert (forall i, (i < length l)%nat -> pt h i = xy (pt3 l i)) as PE.
  { intros i Hi. rewrite <- M. unfold pt, pt3. change (V2 0 0) with (xy (V3 0 0 0)). apply map_nth. }
  rewrite <- LE in W1, WX, WY.
  assert (vx p = qsum (fun i => w i * vx (pt3 l i)) (length l)) as X by (change (vx p) with (ux (xy p)); rewrite WX; apply qsum_ext; intros i Hi; rewrite PE by lia; reflexivity).
  assert (vy p = qsum (fun i => w i * vy (pt3 l i)) (length l)) as Y by (change (vy p) with (uy (xy p)); rewrite WY; apply qsum_ext; intros i Hi; rewrite PE by lia; reflexivity).
  exists w. repeat split; try assumption. rewrite (OP p Hp). rewrite X, Y.
  transitivity (qsum (fun i => w i * (a * vx (pt3 l i) + b * vy (pt3 l i) + c)) (length l)).
  - transitivity (a * qsum (fun i => w i * vx (pt3 l i)) (length l) + b * qsum (fun i => w i * vy (pt3 l i)) (length l) + c * qsum w (length l)); [rewrite W1; ring|].
    generalize (length l). induction n as [|n IH]; [cbn [qsum]; ring|]. cbn [qsum]. rewrite <- IH. ring.
  - apply qsum_ext. intros i Hi. rewrite <- OP; [reflexivity|]. apply I2. apply nth_In. exact Hi.
Qed.

(** points that cannot be in a hull: a linear form bounded on it *)
Lemma in_hull3_bound l a b c d p : (forall q, In q l -> a * vx q + b * vy q + c * vz q <= d) -> in_hull3 l p -> a * vx p + b * vy p + c * vz p <= d.
Proof.
  intros B (w & W0 & W1 & X & Y & Z). rewrite X, Y, Z.
  assert (forall n, (n <= length l)%nat -> a * qsum (fun i => w i * vx (pt3 l i)) n + b * qsum (fun i => w i * vy (pt3 l i)) n + c * qsum (fun i => w i * vz (pt3 l i)) n <= d * qsum w n) as H.
  { induction n as [|n IH]; intros L; cbn [qsum].
    - assert (a * 0 + b * 0 + c * 0 = d * 0) as -> by ring. apply Qcle_refl.
    - assert (In (pt3 l n) l) as I by (apply nth_In; lia). apply B in I. pose proof (Qcmult_le_compat_r _ _ (w n) I (W0 n)) as M. specialize (IH ltac:(lia)).
      set (s1 := qsum (fun i => w i * vx (pt3 l i)) n) in *. set (s2 := qsum (fun i => w i * vy (pt3 l i)) n) in *. set (s3 := qsum (fun i => w i * vz (pt3 l i)) n) in *. set (s4 := qsum w n) in *. set (x := vx (pt3 l n)) in *. set (y := vy (pt3 l n)) in *. set (z := vz (pt3 l n)) in *. set (u := w n) in *.
      replace (a * (s1 + u * x) + b * (s2 + u * y) + c * (s3 + u * z)) with ((a * s1 + b * s2 + c * s3) + (a * x + b * y + c * z) * u) by ring.
      replace (d * (s4 + u)) with (d * s4 + d * u) by ring. apply Qcplus_le_compat; assumption. }
  specialize (H _ (le_n _)). rewrite W1 in H. rewrite Qcmult_1_r in H. exact H.
Qed.
Definition p3 (x y z : Z) : vec3 := V3 (qc x 1) (qc y 1) (qc z 1).
Definition apex_points : list vec3 := [p3 0 0 0; p3 3 0 0; p3 0 3 0; p3 1 1 1].
Lemma apex_lost fl h3 : convex_hull3 fl isort h3 apex_points [] = Ok (FLAT, [p3 0 0 0; p3 3 0 0; p3 0 3 0]) /\ ~ in_hull3 [p3 0 0 0; p3 3 0 0; p3 0 3 0] (p3 1 1 1).
Proof.
  split.
  - unfold convex_hull3, apex_points. change (is_pts_coplanar fl R_EPS (map real3 _)) with true. cbv beta iota. vm_compute. reflexivity.
  - intros H. apply (in_hull3_bound _ 0 0 1 0) in H; [revert H; apply Qclt_not_le; reflexivity|].
    intros q [<-|[<-|[<-|[]]]]; discriminate.
Qed.
Definition wall : list vec3 := [p3 0 0 0; p3 0 1 0; p3 0 1 1; p3 0 0 1].
Lemma wall_lost fl h3 : convex_hull3 fl isort h3 wall [] = Ok (VOLUME, []).
Proof. unfold convex_hull3, wall. change (is_pts_coplanar fl R_EPS (map real3 _)) with true. cbv beta iota. vm_compute. reflexivity. Qed.
Definition tile : list vec3 := [p3 0 0 0; p3 1 0 0; p3 1 1 0; p3 0 1 0].
Lemma tile_volume fl h3 : convex_hull3 fl isort h3 tile [] = Ok (VOLUME, tile).
Proof. unfold convex_hull3, tile. change (is_pts_coplanar fl R_EPS (map real3 _)) with true. cbv beta iota. vm_compute. reflexivity. Qed.
Lemma hull3_old fl sort h3 a b c d old : convex_hull3 fl sort h3 [a; b; c; d] old =
  (' r <- convex_hull3 fl sort h3 [a; b; c; d] [] ;; let h := old ++ snd r in Ok (match length h with 1%nat => POINT | 2%nat => LINE | 3%nat => FLAT | _ => VOLUME end, h)).
Proof.
  unfold convex_hull3. change (is_pts_coplanar fl R_EPS (map real3 _)) with true. cbv beta iota. change (Nat.ltb 3 (length [a; b; c; d])) with true. cbv beta iota.
  destruct (convex_hull2d sort _) as [h|e|]; [|reflexivity..]. cbn [bind]. destruct (mapM (find_above [a; b; c; d]) h) as [m|e|]; reflexivity.
Qed.
Lemma hull3_old_four fl sort h3 pts old k h : length pts = 4%nat -> convex_hull3 fl sort h3 pts old = Ok (k, h) ->
  exists k' h', convex_hull3 fl sort h3 pts [] = Ok (k', h') /\ h = old ++ h' /\
    k = match (length old + length h')%nat with 1%nat => POINT | 2%nat => LINE | 3%nat => FLAT | _ => VOLUME end.
Proof.
  destruct pts as [|a [|b [|c [|d [|e pts]]]]]; try discriminate. intros _ H. rewrite hull3_old in H.
  destruct (convex_hull3 fl sort h3 [a; b; c; d] []) as [[k' h']|e|]; [|discriminate H..]. cbn [bind snd] in H. cbv zeta in H. exists k', h'. split; [reflexivity|].
  injection H as A B. split; [congruence|]. rewrite <- A, app_length. reflexivity.
Qed.
Definition ramp_points : list vec3 := [p3 1 1 2; p3 0 0 0; p3 2 0 2; p3 0 2 2; p3 2 2 4; p3 1 0 1; p3 0 0 0; p3 2 2 4].
Lemma ramp_good : clear_position lit_1em9 (map (fun p => V2 (vx p) (vy p)) ramp_points) /\ not_collinear (map (fun p => V2 (vx p) (vy p)) ramp_points) /\ over_plane ramp_points.
Proof.
  split; [exact grid_clear|]. split; [exact grid_solid|]. exists 1, 1, 0. intros p H. repeat destruct H as [<-|H]; try apply Qc_is_canon; try reflexivity. destruct H.
Qed.

(** in the plane *)
Lemma hull2_kinds sort pts hull : sorts sort -> (3 <= length pts)%nat -> clear_position lit_1em9 pts -> not_collinear pts ->
  exists h, convex_hull2 sort pts hull = Ok (FLAT, h) /\ incl h pts /\ forall p, In p pts -> in_hull h p.
Proof.
  intros SO L GP NCL. unfold convex_hull2. destruct pts as [|p0 t] eqn:EP; [cbn in L; lia|]. rewrite <- EP in *. clear EP p0 t.
  destruct (hull_clear sort pts SO L GP NCL) as (h & E & (C & _) & I & H). rewrite E. cbn [bind]. exists h. split; [|split; assumption].
  destruct h as [|a [|b [|c h]]]; try reflexivity; cbn in C; lia.
Qed.
Lemma hull2_few sort pts hull : (length pts < 3)%nat ->
  convex_hull2 sort pts hull = Ok (match length pts with 0%nat => EMPTY | 1%nat => POINT | _ => LINE end, match pts with [] => hull | _ => pts end).
Proof. intros L. destruct pts as [|a [|b [|c t]]]; try reflexivity. cbn in L. lia. Qed.

(** * GaussMap *)
Lemma gm_separable_same sph s1 s2 g1 g2 : gm_build s1 = Ok g1 -> gm_build s2 = Ok g2 ->
  gauss_map s1 = Ok (gm_surf g1) /\ gauss_map s2 = Ok (gm_surf g2) /\ gm_separable sph g1 g2 = gauss_separable sph (gm_surf g1) (gm_surf g2).
Proof.
  unfold gm_build, gm_of_surf. destruct (gauss_map s1) as [m1| |]; cbn [bind]; try discriminate. destruct (flat3d m1) as [l1| |] eqn:F1; cbn [bind]; try discriminate. intros E. injection E as <-.
  destruct (gauss_map s2) as [m2| |]; cbn [bind]; try discriminate. destruct (flat3d m2) as [l2| |] eqn:F2; cbn [bind]; try discriminate. intros E. injection E as <-.
  cbn [gm_surf]. repeat split. unfold gm_separable, gauss_separable. cbn [gm_pts gm_inv]. rewrite F1, F2. cbn [bind].
  destruct (sph l1 l2) as [b| |]; reflexivity.
Qed.
Lemma piece_flat s q r : piece s q r -> exists g, gm_of_surf q = Ok g /\ gm_surf g = q /\
  gm_inv g = inverse_points (gm_pts g) /\ forall u v, in_rect r u v -> exists p, ns_evaluate s u v = Ok p /\ in_hull3 (gm_pts g) p.
Proof.
  intros P. destruct (piece_in_surf _ _ _ P) as (n & m & G & W & D). destruct (piece_rect _ _ _ P) as (_ & _ & L1 & L2).
  assert (in_rect r (ulo r) (vlo r)) as R0 by (repeat split; try apply Qcle_refl; apply Qclt_le_weak; assumption).
  destruct (flat3d_hull _ _ _ _ _ G W (D _ _ R0)) as (l & _ & E & _). exists (GM l (inverse_points l) q). unfold gm_of_surf. rewrite E. cbn [bind].
  repeat split. intros u v R. destruct (flat3d_hull _ _ _ u v G W (D _ _ R)) as (l' & p & E' & _ & EP & H).
  rewrite E in E'. injection E' as <-. cbn [gm_pts]. exists p. split; [|exact H]. destruct (piece_eval _ _ _ _ _ P R) as (q' & Q1 & Q2). congruence.
Qed.
Lemma gm_step s g r : halvable s -> piece s (gm_surf g) r ->
  gm_subdivide g = Throw EInvalidArgument \/
  exists a b c d, gm_subdivide g = Ok (a, b, c, d) /\ forall x r', quarter r (a, b, c, d) x r' -> piece s (gm_surf x) r' /\ gm_of_surf (gm_surf x) = Ok x.
Proof.
  intros H P. unfold gm_subdivide. destruct (piece_flat _ _ _ P) as (g' & E & _ & _). revert E. unfold gm_of_surf at 1. destruct (flat3d (gm_surf g)) as [l| |]; cbn [bind]; try discriminate. intros _.
  cbv zeta. fold (ns_subdivide (gm_surf g)). destruct (piece_subdivide s (gm_surf g) r H P) as [->|(_ & a & b & c & d & -> & P1 & P2 & P3 & P4)]; [left; reflexivity|]. right. cbn [bind].
  destruct (piece_flat _ _ _ P1) as (g1 & E1 & S1 & _). destruct (piece_flat _ _ _ P2) as (g2 & E2 & S2 & _).
  destruct (piece_flat _ _ _ P3) as (g3 & E3 & S3 & _). destruct (piece_flat _ _ _ P4) as (g4 & E4 & S4 & _).
  rewrite E1, E2, E3, E4. cbn [bind]. do 4 eexists. split; [reflexivity|]. intros x r' Q. unfold quarter in Q. cbv beta iota zeta in Q.
  destruct Q as [(-> & ->)|[(-> & ->)|[(-> & ->)|(-> & ->)]]]; rewrite ?S1, ?S2, ?S3, ?S4; split; assumption.
Qed.
Lemma gm_top s n m : (1 <= n <= 4)%nat -> (1 <= m <= 4)%nat -> good_surf s n m -> unit_surf s -> ns_du s = n -> ns_dv s = m ->
  ns_ku s = repeat 0 (S n) ++ repeat 1 (S n) -> ns_kv s = repeat 0 (S m) ++ repeat 1 (S m) ->
  exists g0 P du dv, gm_build s = Ok g0 /\ (forall u v, unit_square u v -> ns_evaluate s u v = Ok (P u v)) /\
    (forall u v, has_derivative3 (fun t => P t v) u (du u v)) /\ (forall u v, has_derivative3 (fun t => P u t) v (dv u v)) /\
    forall g r, descendant g0 g r ->
      gm_inv g = map (fun p => V3 (- vx p) (- vy p) (- vz p)) (gm_pts g) /\
      (forall u v, in_rect r u v -> in_hull3 (gm_pts g) (v3cross (du u v) (dv u v))) /\
      (gm_subdivide g = Throw EInvalidArgument \/ exists parts, gm_subdivide g = Ok parts).
Proof.
  intros Hn Hm G U Du Dv Ku Kv. pose proof G as (L & Rw & Su & Sv & _ & _ & D8u & D8v).
  destruct (gauss_top s n m Hn Hm G U Du Dv Ku Kv) as (g & P & du & dv & E & HP & HU & HV & IU & IV & HN).
  assert (shape (ns_cps s) (S n) (S m)) as Sh by (split; [exact L|]; intros i Hi; apply Rw, nth_In; lia).
  destruct (gauss_raw s n m Hn Hm Sh Su Sv) as (g' & _ & _ & E' & HH & _).
  { intros i j Hi Hj W. assert (ww (cp (ns_cps s) i j) = 1) as W'.
    { destruct Sh as (L1 & L2). apply (U (nth i (ns_cps s) []) (cp (ns_cps s) i j)); [apply nth_In; lia|]. unfold cp. apply nth_In. rewrite L2 by lia. lia. }
    rewrite W in W'. discriminate. }
  rewrite E in E'. injection E' as <-. pose proof (piece_start g HH) as P0. destruct (piece_flat _ _ _ P0) as (g0 & E0 & S0 & _).
  exists g0, P, du, dv. split; [unfold gm_build; rewrite E; exact E0|]. split; [exact HP|]. split; [exact HU|]. split; [exact HV|].
  assert (rect_of g = Rect 0 1 0 1) as RO by (unfold rect_of; rewrite IU, IV; reflexivity). rewrite RO in P0.
  assert (forall h r, descendant g0 h r -> piece g (gm_surf h) r /\ gm_of_surf (gm_surf h) = Ok h /\ rect_inside r (Rect 0 1 0 1)) as INV.
  { induction 1 as [|h r parts x r' D IH ES Q].
    - rewrite S0. split; [exact P0|]. split; [exact E0|]. repeat split; apply Qcle_refl.
    - destruct IH as (PH & _ & RI). destruct (gm_step g h r HH PH) as [T|(a & b & c & d & E2 & K)]; [congruence|]. rewrite ES in E2. injection E2 as ->.
      destruct (K _ _ Q) as (K1 & K2). split; [exact K1|]. split; [exact K2|]. destruct (piece_rect _ _ _ PH) as (_ & _ & L1 & L2).
      destruct RI as (R1 & R2 & R3 & R4). unfold quarter in Q. cbv beta iota zeta in Q. set (um := _ * qc 1 2) in Q. set (vm := (vlo r + _) * _) in Q.
      assert (ulo r <= um /\ um <= uhi r /\ vlo r <= vm /\ vm <= vhi r) as (M1 & M2 & M3 & M4) by (unfold um, vm; repeat split; qc_lra). clearbody um vm.
      destruct Q as [(_ & ->)|[(_ & ->)|[(_ & ->)|(_ & ->)]]]; unfold rect_inside in *; cbn [ulo uhi vlo vhi] in *; repeat split; eauto using Qcle_trans. }
  intros h r D. destruct (INV h r D) as (PH & EH & RI). destruct (piece_flat _ _ _ PH) as (h' & E1 & _ & I1 & H1). rewrite EH in E1. injection E1 as <-.
  split; [exact I1|]. split.
  - intros u v R. destruct (H1 u v R) as (p & Ep & Hp). rewrite HN in Ep; [injection Ep as <-; exact Hp|].
    destruct RI as (R1 & R2 & R3 & R4), R as (A & B & C & D'). cbn [ulo uhi vlo vhi] in *. repeat split; eauto using Qcle_trans.
  - destruct (gm_step g h r HH PH) as [T|(a & b & c & d & E2 & _)]; [left; exact T|right; eauto].
Qed.
