(** convex_hull on points that its test finds not to be coplanar. *)
From Coq Require Import List ZArith QArith Qcanon Reals Qreals Bool Lia Lra.
From Verif Require Import Base ModelVec ModelPlane ModelPolygon ModelHull3 ModelQuickhull.
From Verif Require Import SpecPlane SpecQuickhull SpecSolidHull ProofPlane ProofQuickhull.
Import ListNotations.
Local Open Scope R_scope.

Lemma as_real_inj p q : as_real p = as_real q -> p = q.
Proof.
  destruct p as [a b c], q as [d e f]. unfold as_real. cbn [vx vy vz]. intros H. pose proof (f_equal rx H) as X. pose proof (f_equal ry H) as Y. pose proof (f_equal rz H) as Z. cbn in X, Y, Z.
  apply eqR_Qeq in X. apply eqR_Qeq in Y. apply eqR_Qeq in Z. f_equal; apply Qc_is_canon; assumption.
Qed.

Lemma grid_volume k M a b c d : (0 < k)%Z -> on_grid k M a -> on_grid k M b -> on_grid k M c -> on_grid k M d -> volume a b c d <> 0 -> 1 <= IZR k ^ 3 * Rabs (volume a b c d).
Proof.
  intros K (x0 & y0 & z0 & -> & _) (x1 & y1 & z1 & -> & _) (x2 & y2 & z2 & -> & _) (x3 & y3 & z3 & -> & _) NZ.
  apply IZR_lt in K. set (V := volume _ _ _ _) in *.
  assert (exists v, IZR k ^ 3 * V = IZR v) as (v & EV).
  { exists (((y1-y0)*(z2-z0)-(z1-z0)*(y2-y0))*(x3-x0) + ((z1-z0)*(x2-x0)-(x1-x0)*(z2-z0))*(y3-y0) + ((x1-x0)*(y2-y0)-(y1-y0)*(x2-x0))*(z3-z0))%Z.
    unfold V, volume, tri_normal, rvdot, rvcross, rvsub. cbn [rx ry rz]. repeat (rewrite plus_IZR || rewrite mult_IZR || rewrite minus_IZR). field. lra. }
  assert (IZR v <> 0) as NV. { rewrite <- EV. apply Rmult_integral_contrapositive_currified; [apply pow_nonzero; lra|exact NZ]. }
  assert (v <> 0%Z) as NV2 by (intros ->; apply NV; reflexivity).
  rewrite <- (Rabs_right (IZR k ^ 3)) by (apply Rle_ge, pow_le; lra). rewrite <- Rabs_mult, EV, <- abs_IZR. apply IZR_le. lia.
Qed.
Lemma bound_sub a b M : Rabs a <= M -> Rabs b <= M -> Rabs (a - b) <= 2 * M.
Proof. intros A B. apply Rabs_le. unfold Rabs in *; destruct (Rcase_abs a), (Rcase_abs b); lra. Qed.
Lemma bound_cross a b c d N : Rabs a <= N -> Rabs b <= N -> Rabs c <= N -> Rabs d <= N -> Rabs (a * b - c * d) <= 2 * (N * N).
Proof.
  intros A B C D. apply Rle_trans with (Rabs (a * b) + Rabs (c * d)); [unfold Rminus; eapply Rle_trans; [apply Rabs_triang|rewrite Rabs_Ropp; lra]|].
  rewrite !Rabs_mult. pose proof (Rabs_pos a). pose proof (Rabs_pos b). pose proof (Rabs_pos c). pose proof (Rabs_pos d).
  pose proof (Rmult_le_compat _ _ _ _ H H0 A B). pose proof (Rmult_le_compat _ _ _ _ H1 H2 C D). lra.
Qed.
Lemma sq_abs x N : Rabs x <= N -> x * x <= N * N.
Proof. intros H. pose proof (Rabs_pos x). replace (x * x) with (Rabs x * Rabs x). apply Rmult_le_compat; assumption. rewrite <- Rabs_mult. apply Rabs_right. nra. Qed.
Lemma grid_normal k M a b c : 1 <= M -> on_grid k M a -> on_grid k M b -> on_grid k M c -> sqrt (rvsq (tri_normal a b c)) <= 16 * M ^ 2.
Proof.
  intros HM (x0 & y0 & z0 & _ & A1 & A2 & A3) (x1 & y1 & z1 & _ & B1 & B2 & B3) (x2 & y2 & z2 & _ & C1 & C2 & C3).
  rewrite <- (sqrt_Rsqr (16 * M ^ 2)) by (apply Rmult_le_pos; [lra|apply pow_le; lra]). apply sqrt_le_1_alt. unfold Rsqr, rvsq.
  pose proof (bound_sub _ _ _ B1 A1) as U1. pose proof (bound_sub _ _ _ B2 A2) as U2. pose proof (bound_sub _ _ _ B3 A3) as U3.
  pose proof (bound_sub _ _ _ C1 A1) as W1. pose proof (bound_sub _ _ _ C2 A2) as W2. pose proof (bound_sub _ _ _ C3 A3) as W3.
  pose proof (sq_abs _ _ (bound_cross _ _ _ _ _ U2 W3 U3 W2)) as X. pose proof (sq_abs _ _ (bound_cross _ _ _ _ _ U3 W1 U1 W3)) as Y. pose proof (sq_abs _ _ (bound_cross _ _ _ _ _ U1 W2 U2 W1)) as Z.
  destruct a as [ax ay az], b as [bx by_ bz], c as [cx cy cz]. unfold tri_normal. cbn in *.
  assert (0 <= M * M) as M2 by nra. replace (2 * (2 * M * (2 * M)) * (2 * (2 * M * (2 * M)))) with (64 * ((M * M) * (M * M))) in X, Y, Z by ring.
  assert (0 <= (M * M) * (M * M)) by nra. replace (16 * (M * (M * 1)) * (16 * (M * (M * 1)))) with (256 * ((M * M) * (M * M))) by ring. lra.
Qed.

(** points in the hull of at most three points are on a plane with them *)
Lemma weighted_plane n h : forall ws l, length ws = length l -> (forall q, In q l -> rvdot n q = h) -> rvdot n (weighted ws l) = h * fold_right Rplus 0 ws.
Proof.
  induction ws as [|w ws IH]; intros [|p l] L H; try discriminate; cbn [weighted fold_right].
  - unfold rvdot. cbn. ring.
  - specialize (IH l ltac:(cbn in L; lia) (fun q Q => H q (or_intror Q))). pose proof (H p (or_introl eq_refl)) as P. unfold rvdot, rvadd in *. cbn in *.
    transitivity (w * (rx n * rx p + ry n * ry p + rz n * rz p) + (rx n * rx (weighted ws l) + ry n * ry (weighted ws l) + rz n * rz (weighted ws l))); [ring|]. rewrite IH, P. ring.
Qed.
Lemma perp u : exists n, n <> RV 0 0 0 /\ rvdot n u = 0.
Proof.
  destruct u as [x y z]. destruct (Req_dec x 0) as [->|X].
  - exists (RV 1 0 0). split; [intros E; apply (f_equal rx) in E; cbn in E; lra|]. unfold rvdot. cbn. ring.
  - exists (RV y (- x) 0). split; [intros E; apply (f_equal ry) in E; cbn in E; lra|]. unfold rvdot. cbn. ring.
Qed.
Lemma perp2 u v : exists n, n <> RV 0 0 0 /\ rvdot n u = 0 /\ rvdot n v = 0.
Proof.
  destruct (Req_dec (rvsq (rvcross u v)) 0) as [E|E].
  - destruct (Req_dec (rvsq u) 0) as [U|U].
    + destruct (perp v) as (n & N & H). exists n. split; [exact N|]. split; [|exact H]. destruct u as [a b c]. unfold rvsq in U. apply sum_sq_zero in U. cbn in U. destruct U as (-> & -> & ->). unfold rvdot. cbn. ring.
    + destruct (perp u) as (n & N & H). exists n. split; [exact N|]. split; [exact H|].
      destruct u as [a b c], v as [d e f], n as [p q r]. unfold rvsq in E. apply sum_sq_zero in E as (E1 & E2 & E3). unfold rvsq, rvdot, rvcross in *. cbn in *.
      (* u.u * n.v = n.u * u.v as v is along u *)
      assert ((a * a + b * b + c * c) * (p * d + q * e + r * f) = (p * a + q * b + r * c) * (a * d + b * e + c * f)) as G.
      { assert (b * f = c * e) by lra. assert (c * d = a * f) by lra. assert (a * e = b * d) by lra.
        transitivity ((p * a + q * b + r * c) * (a * d + b * e + c * f) + p * (b * (b * d) + c * (c * d) - b * (a * e) - c * (a * f)) + q * (a * (a * e) + c * (c * e) - a * (b * d) - c * (b * f)) + r * (a * (a * f) + b * (b * f) - a * (c * d) - b * (c * e)));
          [ring|]. rewrite H0, H1, H2. ring. }
      rewrite H, Rmult_0_l in G. apply Rmult_integral in G as [G|G]; [contradiction|exact G].
  - exists (rvcross u v). split; [|unfold rvdot; cbn; split; ring]. intros Z. apply E. rewrite Z. unfold rvsq. cbn. ring.
Qed.
Lemma three_on_plane l : (length l <= 3)%nat -> on_one_plane l.
Proof.
  intros L. destruct l as [|a l]; [exists (RV 1 0 0), 0; split; [intros E; apply (f_equal rx) in E; cbn in E; lra|intros p []]|].
  assert (exists b c, incl l [b; c]) as (b & c & I).
  { destruct l as [|b [|c [|? ?]]]; [exists a, a; intros x []|exists b, b; intros x [<-|[]]; left; reflexivity|exists b, c; intros x [<-|[<-|[]]]; cbn; auto|cbn in L; lia]. }
  destruct (perp2 (rvsub b a) (rvsub c a)) as (n & N & P1 & P2). exists n, (rvdot n a). split; [exact N|].
  intros p [<-|Hp]; [reflexivity|]. destruct (I p Hp) as [<-|[<-|[]]]; unfold rvdot, rvsub in *; cbn in *; lra.
Qed.
Lemma solid_four pts found : ~ on_one_plane pts -> (forall p, In p pts -> in_hullr found p) -> (4 <= length found)%nat.
Proof.
  intros S3 H. destruct (le_lt_dec 4 (length found)) as [L|L]; [exact L|]. exfalso. apply S3. destruct (three_on_plane found ltac:(lia)) as (n & h & N & P). exists n, h. split; [exact N|].
  intros p Hp. destruct (H p Hp) as (ws & L1 & _ & W & <-). rewrite (weighted_plane n h) by assumption. rewrite W. ring.
Qed.

Lemma solid_hull fl sort h3 k M p0 p1 p2 p3 rest q : let pts := p0 :: p1 :: p2 :: p3 :: rest in
  runs_quickhull h3 -> (0 < k)%Z -> 1 <= M -> 16 * IZR k ^ 3 * M ^ 2 < 2 ^ 52 -> (forall p, In p pts -> on_grid k M (as_real p)) ->
  (let a := as_real p0 in let b := as_real p1 in let c := as_real p2 in
   fl (ry a * rz b) = ry a * rz b /\ fl (ry b * rz c) = ry b * rz c /\ fl (ry c * rz a) = ry c * rz a) ->
  In q rest -> vol (as_real p0) (as_real p1) (as_real p2) (as_real q) <> 0 ->
  exists hull, convex_hull3 fl sort h3 pts [] = Ok (VOLUME, hull) /\ NoDup hull /\ incl hull pts /\
    (forall p, In p pts -> in_hullr (map as_real hull) (as_real p)) /\ (forall p, In p pts -> extreme (map as_real pts) (as_real p) -> In p hull).
Proof.
  intros pts RQ K HM KM OG (F1 & F2 & F3) Q V.
  assert (forall a b c d, vol a b c d = volume a b c d) as VV by reflexivity. rewrite VV in V.
  assert (tri_normal (as_real p0) (as_real p1) (as_real p2) <> RV 0 0 0) as NZ.
  { intros E. apply V. unfold volume. rewrite E. unfold rvdot. cbn. ring. }
  assert (In p0 pts /\ In p1 pts /\ In p2 pts /\ In q pts) as (I0 & I1 & I2 & Iq) by (unfold pts; cbn; tauto).
  assert (is_pts_coplanar fl R_EPS (map as_real pts) = false) as NC.
  { destruct (is_pts_coplanar _ _ _) eqn:E; [|reflexivity]. exfalso. unfold pts in E. cbn [map] in E.
    apply (proj1 (coplanar_rest fl R_EPS _ _ _ _ _ F1 F2 F3 NZ)) with (q := as_real q) in E; [|apply in_map; exact Q].
    pose proof (grid_volume k M _ _ _ _ K (OG _ I0) (OG _ I1) (OG _ I2) (OG _ Iq) V) as G1. pose proof (grid_normal k M _ _ _ HM (OG _ I0) (OG _ I1) (OG _ I2)) as G2.
    set (x := Rabs _) in *. set (y := sqrt _) in *. assert (0 < IZR k ^ 3) as K3 by (apply pow_lt, IZR_lt; exact K).
    assert (IZR k ^ 3 * x < IZR k ^ 3 * (R_EPS * y)) as B by (apply Rmult_lt_compat_l; assumption).
    assert (2 ^ 52 * R_EPS = 1) as E52 by (unfold R_EPS; lra).
    assert (0 < R_EPS) as EP by (assert (0 < 2 ^ 52) by (apply pow_lt; lra); nra).
    assert (IZR k ^ 3 * (R_EPS * y) <= R_EPS * (16 * IZR k ^ 3 * M ^ 2)) as B2 by (replace (R_EPS * (16 * IZR k ^ 3 * M ^ 2)) with (IZR k ^ 3 * (R_EPS * (16 * M ^ 2))) by ring; apply Rmult_le_compat_l; [lra|apply Rmult_le_compat_l; lra]).
    assert (R_EPS * (16 * IZR k ^ 3 * M ^ 2) < R_EPS * 2 ^ 52) as B3 by (apply Rmult_lt_compat_l; lra). lra. }
  assert (~ on_one_plane (map as_real pts)) as S3.
  { intros (n & h & N & P). apply N.
    pose proof (P _ (in_map as_real _ _ I0)) as P0. pose proof (P _ (in_map as_real _ _ I1)) as P1. pose proof (P _ (in_map as_real _ _ I2)) as P2. pose proof (P _ (in_map as_real _ _ Iq)) as P3.
    clear - P0 P1 P2 P3 V. destruct (as_real p0) as [a b c], (as_real p1) as [d e f], (as_real p2) as [g i j], (as_real q) as [l m o], n as [x y z].
    unfold volume, tri_normal, rvdot, rvcross, rvsub in *. cbn in *.
    set (u1 := d - a) in *. set (u2 := e - b) in *. set (u3 := f - c) in *. set (v1 := g - a) in *. set (v2 := i - b) in *. set (v3 := j - c) in *. set (w1 := l - a) in *. set (w2 := m - b) in *. set (w3 := o - c) in *.
    assert (x * u1 + y * u2 + z * u3 = 0) as EU by (unfold u1, u2, u3; lra). assert (x * v1 + y * v2 + z * v3 = 0) as EV by (unfold v1, v2, v3; lra). assert (x * w1 + y * w2 + z * w3 = 0) as EW by (unfold w1, w2, w3; lra).
    clearbody u1 u2 u3 v1 v2 v3 w1 w2 w3.
    set (D := (u2 * v3 - u3 * v2) * w1 + (u3 * v1 - u1 * v3) * w2 + (u1 * v2 - u2 * v1) * w3) in *.
    assert (D * x = 0) as X by (transitivity ((x * u1 + y * u2 + z * u3) * (v2 * w3 - v3 * w2) + (x * v1 + y * v2 + z * v3) * (w2 * u3 - w3 * u2) + (x * w1 + y * w2 + z * w3) * (u2 * v3 - u3 * v2)); [unfold D; ring|rewrite EU, EV, EW; ring]).
    assert (D * y = 0) as Y by (transitivity ((x * u1 + y * u2 + z * u3) * (v3 * w1 - v1 * w3) + (x * v1 + y * v2 + z * v3) * (w3 * u1 - w1 * u3) + (x * w1 + y * w2 + z * w3) * (u3 * v1 - u1 * v3)); [unfold D; ring|rewrite EU, EV, EW; ring]).
    assert (D * z = 0) as Z by (transitivity ((x * u1 + y * u2 + z * u3) * (v1 * w2 - v2 * w1) + (x * v1 + y * v2 + z * v3) * (w1 * u2 - w2 * u1) + (x * w1 + y * w2 + z * w3) * (u1 * v2 - u2 * v1)); [unfold D; ring|rewrite EU, EV, EW; ring]).
    apply Rmult_integral in X as [X|X]; [contradiction|]. apply Rmult_integral in Y as [Y|Y]; [contradiction|]. apply Rmult_integral in Z as [Z|Z]; [contradiction|]. subst. reflexivity. }
  destruct (hull3d_cover k M (map as_real pts) (map as_real []) K HM KM) as (found & E & ND & IC & COV & _ & EX).
  { intros p Hp. apply in_map_iff in Hp as (p' & <- & Hp). apply OG. exact Hp. }
  { exact S3. }
  { rewrite map_length. unfold pts. cbn. destruct rest; [destruct Q|cbn; lia]. }
  rewrite (RQ pts []) in E. destruct (h3 pts []) as [hull| |] eqn:EH; try discriminate. cbn [map app] in E. assert (map as_real hull = found) as <- by congruence.
  pose proof (solid_four _ _ S3 COV) as L4. rewrite map_length in L4.
  exists hull. split.
  - change (convex_hull3 fl sort h3 pts []) with (hull <- (if is_pts_coplanar fl R_EPS (map real3 pts) then
      if Nat.ltb 3 (length pts) then
        h <- convex_hull2d sort (map (fun p => V2 (vx p) (vy p)) pts) ;;
        more <- mapM (find_above pts) h ;; Ok ([] ++ more)
      else Ok pts
    else h3 pts []) ;;
    Ok (match length hull with 1%nat => POINT | 2%nat => LINE | 3%nat => FLAT | _ => VOLUME end, hull)).
    change (map real3 pts) with (map as_real pts). rewrite NC, EH. cbn [bind]. destruct hull as [|? [|? [|? [|? ?]]]]; cbn in L4; try lia; reflexivity.
  - split; [exact (NoDup_map_inv _ _ ND)|]. split.
    { intros p Hp. pose proof (IC _ (in_map as_real _ _ Hp)) as I. apply in_map_iff in I as (p' & E' & I). apply as_real_inj in E' as ->. exact I. }
    split; [intros p Hp; apply COV, in_map, Hp|].
    intros p Hp X. apply EX in X. apply in_map_iff in X as (p' & E' & X). apply as_real_inj in E' as ->. exact X.
Qed.
