(** Concrete inputs for the theorems about convex_hull3d. *)
From Coq Require Import List Arith Bool ZArith Reals Lra Lia.
From Verif Require Import Base LoopFacts ModelPlane ModelQuickhull SpecQuickhull ProofQhGeo ProofQhWalk ProofQhHull ProofQhFlat ProofQuickhull.
Import ListNotations.
Local Open Scope R_scope.

Definition z3 := (Z * Z * Z)%type.
Definition to_r (s : R) (p : z3) : v3r := let '(x, y, z) := p in RV (IZR x / s) (IZR y / s) (IZR z / s).
Definition volz (a b c d : z3) : Z :=
  let '(a0, a1, a2) := a in let '(b0, b1, b2) := b in let '(c0, c1, c2) := c in let '(d0, d1, d2) := d in
  let ux := (b0 - a0)%Z in let uy := (b1 - a1)%Z in let uz := (b2 - a2)%Z in
  let vx := (c0 - a0)%Z in let vy := (c1 - a1)%Z in let vz := (c2 - a2)%Z in
  ((uy * vz - uz * vy) * (d0 - a0) + (uz * vx - ux * vz) * (d1 - a1) + (ux * vy - uy * vx) * (d2 - a2))%Z.
Lemma vol_to_r s a b c d : s <> 0 -> vol (to_r s a) (to_r s b) (to_r s c) (to_r s d) = IZR (volz a b c d) / s ^ 3.
Proof.
  intros N. destruct a as [[a0 a1] a2], b as [[b0 b1] b2], c as [[c0 c1] c2], d as [[d0 d1] d2]. unfold vol, volz, to_r, rvdot, rvcross, rvsub. cbn [rx ry rz].
  rewrite !plus_IZR, !mult_IZR, !minus_IZR, !mult_IZR, !minus_IZR. field. exact N.
Qed.
Definition distinct (l : list nat) : bool := match l with [a; b; c; d] => negb (Nat.eqb a b || Nat.eqb a c || Nat.eqb a d || Nat.eqb b c || Nat.eqb b d || Nat.eqb c d) | _ => false end.
Definition general (l : list z3) : bool :=
  let e := combine (seq 0 (length l)) l in
  forallb (fun a => forallb (fun b => forallb (fun c => forallb (fun d =>
    if distinct [fst a; fst b; fst c; fst d] then negb (Z.eqb (volz (snd a) (snd b) (snd c) (snd d)) 0) else true) e) e) e) e.
Lemma indexed (l : list z3) i p : nth_error l i = Some p -> In (i, p) (combine (seq 0 (length l)) l).
Proof.
  assert (forall (l : list z3) m i p, nth_error l i = Some p -> In ((m + i)%nat, p) (combine (seq m (length l)) l)) as H.
  { induction l0 as [|q l0 IH]; intros m j x E; [destruct j; discriminate|]. destruct j; cbn in *; [injection E as ->; left; f_equal; lia|right]. replace (m + S j)%nat with (S m + j)%nat by lia. apply IH. exact E. }
  intros E. exact (H l 0%nat i p E).
Qed.
Lemma general_ok s l : s <> 0 -> general l = true -> no_four_coplanar (map (to_r s) l).
Proof.
  intros N G i j k m a b c d ND A B C D. rewrite nth_error_map in A, B, C, D.
  destruct (nth_error l i) as [a'|] eqn:A'; [injection A as <-|discriminate]. destruct (nth_error l j) as [b'|] eqn:B'; [injection B as <-|discriminate].
  destruct (nth_error l k) as [c'|] eqn:C'; [injection C as <-|discriminate]. destruct (nth_error l m) as [d'|] eqn:D'; [injection D as <-|discriminate].
  apply indexed in A', B', C', D'. unfold general in G. rewrite forallb_forall in G. specialize (G _ A'). rewrite forallb_forall in G. specialize (G _ B'). rewrite forallb_forall in G. specialize (G _ C'). rewrite forallb_forall in G. specialize (G _ D').
  cbn [fst snd] in G. assert (distinct [i; j; k; m] = true) as DT.
  { inversion ND as [|? ? Q1 ND1]; subst. inversion ND1 as [|? ? Q2 ND2]; subst. inversion ND2 as [|? ? Q3 ND3]; subst. cbn in Q1, Q2, Q3. cbn.
    destruct (Nat.eqb_spec i j); [exfalso; subst; tauto|]. destruct (Nat.eqb_spec i k); [exfalso; subst; tauto|]. destruct (Nat.eqb_spec i m); [exfalso; subst; tauto|].
    destruct (Nat.eqb_spec j k); [exfalso; subst; tauto|]. destruct (Nat.eqb_spec j m); [exfalso; subst; tauto|]. destruct (Nat.eqb_spec k m); [exfalso; subst; tauto|]. reflexivity. }
  rewrite DT in G. apply negb_true_iff, Z.eqb_neq in G. rewrite vol_to_r by exact N. intros X. apply G. apply eq_IZR. apply Rmult_integral in X as [X|X]; [exact X|].
  exfalso. assert (s ^ 3 <> 0) as N3 by (apply pow_nonzero; exact N). apply (Rinv_neq_0_compat _ N3). exact X.
Qed.
(** a linear function that is larger on all other points shows that a point is
    extreme *)
Lemma not_in_hull (g : v3r) l p : (forall q, In q l -> rvdot g p < rvdot g q) -> ~ in_hullr l p.
Proof.
  intros H (ws & L & N & S1 & W). assert (forall ws l, length ws = length l -> (forall w, In w ws -> 0 <= w) -> (forall q, In q l -> rvdot g p < rvdot g q) ->
    rvdot g p * fold_right Rplus 0 ws <= rvdot g (weighted ws l) /\ (0 < fold_right Rplus 0 ws -> rvdot g p * fold_right Rplus 0 ws < rvdot g (weighted ws l))) as G.
  { clear. induction ws as [|w ws IH]; intros [|q l] L N H; try discriminate; cbn [fold_right weighted].
    - unfold rvdot. cbn. split; [lra|intros X; lra].
    - destruct (IH l) as [A B]; [cbn in L; lia|intros x X; apply N; right; exact X|intros x X; apply H; right; exact X|].
      specialize (H q (or_introl eq_refl)). pose proof (N w (or_introl eq_refl)) as W.
      replace (rvdot g (rvadd (RV (w * rx q) (w * ry q) (w * rz q)) (weighted ws l))) with (w * rvdot g q + rvdot g (weighted ws l)) by (unfold rvdot, rvadd; cbn; ring).
      set (u := rvdot g p) in *. set (v := rvdot g q) in *. set (s := fold_right Rplus 0 ws) in *. set (t := rvdot g (weighted ws l)) in *. split; [nra|]. intros X. destruct (Rle_lt_dec s 0) as [Y|Y]; [|specialize (B Y); nra]. nra. }
  destruct (G ws l L N H) as [_ B]. rewrite S1, W in B. assert (0 < 1) as X by lra. specialize (B X). lra.
Qed.

(** five points of the curve (t, t^2, t^3) and one inside *)
Definition five : list z3 := [(-2, 4, -8); (-1, 1, -1); (0, 0, 0); (1, 1, 1); (2, 4, 8)]%Z.
Definition six : list z3 := five ++ [(0, 2, 1)]%Z.
Definition units (l : list z3) : list v3r := map (to_r 1) l.
Definition tiny (l : list z3) : list v3r := map (to_r (IZR 67108864)) l.
Lemma one_nz : 1 <> 0. Proof. lra. Qed.
Lemma six_general : no_four_coplanar (units six). Proof. apply (general_ok 1 six one_nz). vm_compute. reflexivity. Qed.
Lemma five_general : no_four_coplanar (units five). Proof. apply (general_ok 1 five one_nz). vm_compute. reflexivity. Qed.
Lemma tiny_general : no_four_coplanar (tiny five). Proof. apply (general_ok _ five); [lra|]. vm_compute. reflexivity. Qed.
Lemma abs_le x y : - y <= x -> x <= y -> Rabs x <= y. Proof. intros A B. apply Rabs_le. lra. Qed.
Lemma six_grid p : In p (units six) -> on_grid 1 8 p.
Proof.
  intros I. apply in_map_iff in I as ([[x y] z] & <- & I). exists x, y, z. split; [reflexivity|]. cbn [to_r rx ry rz].
  repeat destruct I as [E|I]; try contradiction; injection E as <- <- <-; repeat split; apply abs_le; lra.
Qed.
Lemma five_grid p : In p (units five) -> on_grid 1 8 p.
Proof. intros I. apply six_grid. unfold units, six. rewrite map_app. apply in_or_app. left. exact I. Qed.
Lemma tiny_grid p : In p (tiny five) -> on_grid 67108864 (8 / 67108864) p.
Proof.
  intros I. apply in_map_iff in I as ([[x y] z] & <- & I). exists x, y, z. split; [reflexivity|]. cbn [to_r rx ry rz].
  repeat destruct I as [E|I]; try contradiction; injection E as <- <- <-; repeat split; apply abs_le; lra.
Qed.
Lemma six_extreme p : In p (units five) -> extreme (units six) p.
Proof.
  intros I. cbn in I. unfold extreme, units, six, five. cbn [map app].
  destruct I as [<-|[<-|[<-|[<-|[<-|[]]]]]].
  - exists [], (map (to_r 1) [(-1, 1, -1); (0, 0, 0); (1, 1, 1); (2, 4, 8); (0, 2, 1)]%Z). split; [reflexivity|]. apply (not_in_hull (RV 4 1 0)). cbn. intros q J. repeat destruct J as [<-|J]; try contradiction; unfold rvdot; cbn; lra.
  - exists (map (to_r 1) [(-2, 4, -8)]%Z), (map (to_r 1) [(0, 0, 0); (1, 1, 1); (2, 4, 8); (0, 2, 1)]%Z). split; [reflexivity|]. apply (not_in_hull (RV 2 1 0)). cbn. intros q J. repeat destruct J as [<-|J]; try contradiction; unfold rvdot; cbn; lra.
  - exists (map (to_r 1) [(-2, 4, -8); (-1, 1, -1)]%Z), (map (to_r 1) [(1, 1, 1); (2, 4, 8); (0, 2, 1)]%Z). split; [reflexivity|]. apply (not_in_hull (RV 0 1 0)). cbn. intros q J. repeat destruct J as [<-|J]; try contradiction; unfold rvdot; cbn; lra.
  - exists (map (to_r 1) [(-2, 4, -8); (-1, 1, -1); (0, 0, 0)]%Z), (map (to_r 1) [(2, 4, 8); (0, 2, 1)]%Z). split; [reflexivity|]. apply (not_in_hull (RV (-2) 1 0)). cbn. intros q J. repeat destruct J as [<-|J]; try contradiction; unfold rvdot; cbn; lra.
  - exists (map (to_r 1) [(-2, 4, -8); (-1, 1, -1); (0, 0, 0); (1, 1, 1)]%Z), (map (to_r 1) [(0, 2, 1)]%Z). split; [reflexivity|]. apply (not_in_hull (RV (-4) 1 0)). cbn. intros q J. repeat destruct J as [<-|J]; try contradiction; unfold rvdot; cbn; lra.
Qed.
Lemma extreme_fewer l q p : extreme (l ++ [q]) p -> In p l -> extreme l p.
Proof.
  intros (l1 & l2 & E & N) I. destruct (exists_last (l := p :: l2)) as (l3 & z & E2); [discriminate|].
  destruct l2 as [|y l2].
  - exfalso. apply app_inj_tail in E as [E ->]. apply N. rewrite app_nil_r. apply in_hull_cone, cone_in. rewrite <- E. exact I.
  - destruct (exists_last (l := y :: l2)) as (l4 & w & E4); [discriminate|]. rewrite E4 in *. clear E4. replace (l1 ++ p :: l4 ++ [w]) with ((l1 ++ p :: l4) ++ [w]) in E by (rewrite <- app_assoc; reflexivity).
    apply app_inj_tail in E as [-> ->]. exists l1, l4. split; [reflexivity|]. intros X. apply N. revert X. apply hull_incl. intros x Y. rewrite app_assoc. apply in_or_app. left. exact Y.
Qed.
Lemma five_extreme p : In p (units five) -> extreme (units five) p.
Proof. intros I. apply (extreme_fewer _ (to_r 1 (0, 2, 1)%Z)); [|exact I]. exact (six_extreme p I). Qed.
Definition shrink (p : v3r) : v3r := RV (rx p / 67108864) (ry p / 67108864) (rz p / 67108864).
Lemma tiny_shrink : tiny five = map shrink (units five).
Proof. unfold tiny, units. rewrite map_map. apply map_ext. intros [[x y] z]. unfold shrink, to_r. cbn [rx ry rz]. f_equal; field. Qed.
Lemma shrink_hull l p : in_hullr (map shrink l) (shrink p) -> in_hullr l p.
Proof.
  intros (ws & L & N & S1 & W). rewrite map_length in L. exists ws. split; [exact L|]. split; [exact N|]. split; [exact S1|].
  assert (weighted ws (map shrink l) = shrink (weighted ws l)) as E.
  { clear. revert l. induction ws as [|w ws IH]; intros [|q l]; cbn; try (unfold shrink; cbn; apply v3_eq; cbn; field). rewrite IH. unfold shrink, rvadd. cbn. apply v3_eq; cbn; field. }
  rewrite E in W. unfold shrink in W. injection W as W1 W2 W3. apply v3_eq; lra.
Qed.
Lemma tiny_extreme p : In p (tiny five) -> extreme (tiny five) p.
Proof.
  rewrite tiny_shrink. intros I. apply in_map_iff in I as (q & <- & I). destruct (five_extreme q I) as (l1 & l2 & E & N). exists (map shrink l1), (map shrink l2). split; [rewrite E, map_app; reflexivity|].
  rewrite <- map_app. intros X. apply N. apply shrink_hull. exact X.
Qed.
Lemma eps_pos : 0 <= machine_eps. Proof. unfold machine_eps. apply Rlt_le, Rinv_0_lt_compat, pow_lt. lra. Qed.
Lemma pow52 : 2 ^ 52 = 4503599627370496. Proof. cbn. ring. Qed.
Lemma tiny_lost lower hull : convex_hull3d lower (tiny five) hull = Ok hull.
Proof.
  apply (hull_tiny machine_eps (tiny five) 67108864 (8 / 67108864)); [exact eps_pos|lia|lra|unfold machine_eps; rewrite pow52; lra..|exact tiny_grid|exact (general_not_flat _ tiny_general (le_n 5))|cbn; lia|]. unfold machine_eps. rewrite pow52. lra.
Qed.
Lemma flag_loses : exists pts p, no_four_coplanar pts /\ extreme pts p /\ forall hull, exists found, convex_hull3d true pts hull = Ok (hull ++ found) /\ ~ In p found.
Proof.
  destruct (hull_lower machine_eps (units five) 1 8 eps_pos) as (found & L & H); [lia|lra|apply grid_eps; rewrite pow52; lra|exact five_grid|exact (general_not_flat _ five_general (le_n 5))|cbn; lia|].
  assert (NoDup (units five)) as ND.
  { unfold units, five. cbn. repeat constructor; cbn; intros X; repeat destruct X as [X|X]; try contradiction; injection X; lra. }
  assert (exists p, In p (units five) /\ ~ In p found) as (p & I & N).
  { assert (forall p q : v3r, {p = q} + {p <> q}) as DEC.
    { intros [a b c] [d e f]. destruct (Req_EM_T a d) as [->|X]; [|right; congruence]. destruct (Req_EM_T b e) as [->|X]; [|right; congruence]. destruct (Req_EM_T c f) as [->|X]; [left; reflexivity|right; congruence]. }
    assert (forall l, {incl l found} + {exists p, In p l /\ ~ In p found}) as D.
    { induction l as [|x l [A|A]]; [left; intros x []| |right; destruct A as (p & P1 & P2); exists p; split; [right; exact P1|exact P2]].
      destruct (in_dec DEC x found) as [B|B]; [left; intros y [<-|Y]; [exact B|exact (A y Y)]|right; exists x; split; [left; reflexivity|exact B]]. }
    destruct (D (units five)) as [X|X]; [|exact X]. apply NoDup_incl_length in X; [cbn in X; lia|exact ND]. }
  exists (units five), p. split; [exact five_general|]. split; [exact (five_extreme p I)|]. intros hull. exists found. split; [apply H|exact N].
Qed.
Lemma six_run hull : exists found, convex_hull3d false (units six) hull = Ok (hull ++ found) /\ NoDup found /\ forall p, In p found <-> In p (units five).
Proof.
  destruct (hull3d_extreme 1 8 (units six) hull) as (found & E & ND & X & _); [lia|lra|rewrite pow52; lra|exact six_grid|exact six_general|cbn; lia|].
  exists found. split; [exact E|]. split; [exact ND|]. intros p. rewrite X. split; [|exact (six_extreme p)].
  intros (l1 & l2 & EQ & N). assert (In p (units six)) as I by (rewrite EQ; apply in_or_app; right; left; reflexivity).
  unfold units, six in I. rewrite map_app in I. apply in_app_iff in I as [I|[<-|[]]]; [exact I|exfalso]. apply N.
  (* the sixth point is a combination of the others *)
  assert (incl (units five) (l1 ++ l2)) as IN.
  { intros q Q. assert (In q (units six)) as J by (unfold units, six; rewrite map_app; apply in_or_app; left; exact Q). rewrite EQ in J. apply in_app_iff in J as [J|[J|J]]; [apply in_or_app; auto| |apply in_or_app; auto].
    exfalso. rewrite <- J in Q. cbn in Q. repeat destruct Q as [Q|Q]; try contradiction; injection Q; lra. }
  apply (hull_incl _ _ _ IN). exists [/ 12; / 2; 0; / 6; / 4]. split; [reflexivity|]. split; [intros w W; cbn in W; repeat destruct W as [<-|W]; try contradiction; lra|]. split; [cbn; lra|]. cbn. unfold rvadd. cbn. apply v3_eq; cbn; lra.
Qed.
Lemma stale : exists pts hull q found, ~ in_hullr pts q /\ In q hull /\ convex_hull3d false pts hull = Ok (hull ++ found).
Proof.
  destruct (six_run [RV 100 0 0]) as (found & E & _). exists (units six), [RV 100 0 0], (RV 100 0 0), found. split; [|split; [left; reflexivity|exact E]].
  apply (not_in_hull (RV (- 1) 0 0)). intros q Q. cbn in Q. repeat destruct Q as [<-|Q]; try contradiction; unfold rvdot; cbn; lra.
Qed.
Lemma few_not_extreme : exists pts p, In p pts /\ ~ extreme pts p /\ NoDup pts /\ forall lower hull, convex_hull3d lower pts hull = Ok pts.
Proof.
  exists [RV 0 0 0; RV 1 0 0; RV 2 0 0], (RV 1 0 0). split; [cbn; auto|].
  assert (NoDup [RV 0 0 0; RV 1 0 0; RV 2 0 0]) as ND by (repeat constructor; cbn; intros X; repeat destruct X as [X|X]; try contradiction; injection X; lra).
  split; [|split; [exact ND|reflexivity]].
  intros (l1 & l2 & E & N). assert (incl [RV 0 0 0; RV 2 0 0] (l1 ++ l2)) as IN.
  { intros q Q. assert (In q (l1 ++ RV 1 0 0 :: l2)) as J by (rewrite <- E; cbn in *; tauto). apply in_app_iff in J as [J|[J|J]]; [apply in_or_app; auto| |apply in_or_app; auto]. exfalso. rewrite <- J in Q. cbn in Q. repeat destruct Q as [Q|Q]; try contradiction; injection Q; lra. }
  apply N. apply (hull_incl _ _ _ IN). exists [/ 2; / 2]. split; [reflexivity|]. split; [intros w W; cbn in W; repeat destruct W as [<-|W]; try contradiction; lra|]. split; [cbn; lra|]. cbn. unfold rvadd. cbn. apply v3_eq; cbn; lra.
Qed.
(** five corners of a polygon in the plane z = 0 *)
Definition pentagon : list v3r := units [(-2, 4, 0); (-1, 1, 0); (0, 0, 0); (1, 1, 0); (2, 4, 0)]%Z.
Lemma pentagon_flat : on_one_plane pentagon.
Proof.
  exists (RV 0 0 1), 0. split; [intros X; injection X; lra|]. intros p I. apply in_map_iff in I as ([[x y] z] & <- & I).
  repeat destruct I as [E|I]; try contradiction; injection E as <- <- <-; unfold rvdot; cbn; lra.
Qed.
Lemma pentagon_extreme p : In p pentagon -> extreme pentagon p.
Proof.
  intros I. cbn in I. unfold extreme, pentagon, units. cbn [map app].
  destruct I as [<-|[<-|[<-|[<-|[<-|[]]]]]].
  - exists [], (map (to_r 1) [(-1, 1, 0); (0, 0, 0); (1, 1, 0); (2, 4, 0)]%Z). split; [reflexivity|]. apply (not_in_hull (RV 4 1 0)). cbn. intros q J. repeat destruct J as [<-|J]; try contradiction; unfold rvdot; cbn; lra.
  - exists (map (to_r 1) [(-2, 4, 0)]%Z), (map (to_r 1) [(0, 0, 0); (1, 1, 0); (2, 4, 0)]%Z). split; [reflexivity|]. apply (not_in_hull (RV 2 1 0)). cbn. intros q J. repeat destruct J as [<-|J]; try contradiction; unfold rvdot; cbn; lra.
  - exists (map (to_r 1) [(-2, 4, 0); (-1, 1, 0)]%Z), (map (to_r 1) [(1, 1, 0); (2, 4, 0)]%Z). split; [reflexivity|]. apply (not_in_hull (RV 0 1 0)). cbn. intros q J. repeat destruct J as [<-|J]; try contradiction; unfold rvdot; cbn; lra.
  - exists (map (to_r 1) [(-2, 4, 0); (-1, 1, 0); (0, 0, 0)]%Z), (map (to_r 1) [(2, 4, 0)]%Z). split; [reflexivity|]. apply (not_in_hull (RV (-2) 1 0)). cbn. intros q J. repeat destruct J as [<-|J]; try contradiction; unfold rvdot; cbn; lra.
  - exists (map (to_r 1) [(-2, 4, 0); (-1, 1, 0); (0, 0, 0); (1, 1, 0)]%Z), []. split; [reflexivity|]. apply (not_in_hull (RV (-4) 1 0)). cbn. intros q J. repeat destruct J as [<-|J]; try contradiction; unfold rvdot; cbn; lra.
Qed.
Lemma pentagon_nodup : NoDup pentagon.
Proof. unfold pentagon, units. cbn. repeat constructor; cbn; intros X; repeat destruct X as [X|X]; try contradiction; injection X; lra. Qed.
Lemma flat_lost lower hull : exists found p, convex_hull3d lower pentagon hull = Ok found /\ extreme pentagon p /\ ~ In p found /\ ~ in_hullr found p.
Proof.
  destruct (hull3d_flat lower pentagon hull pentagon_flat) as (found & E & L & I); [cbn; lia|].
  assert (forall p q : v3r, {p = q} + {p <> q}) as DEC.
  { intros [a b c] [d e f]. destruct (Req_EM_T a d) as [->|X]; [|right; congruence]. destruct (Req_EM_T b e) as [->|X]; [|right; congruence]. destruct (Req_EM_T c f) as [->|X]; [left; reflexivity|right; congruence]. }
  assert (forall l, {incl l found} + {exists p, In p l /\ ~ In p found}) as D.
  { induction l as [|x l [A|A]]; [left; intros x []| |right; destruct A as (p & P1 & P2); exists p; split; [right; exact P1|exact P2]].
    destruct (in_dec DEC x found) as [B|B]; [left; intros y [<-|Y]; [exact B|exact (A y Y)]|right; exists x; split; [left; reflexivity|exact B]]. }
  destruct (D pentagon) as [X|(p & P1 & P2)]; [apply NoDup_incl_length in X; [cbn in X; lia|exact pentagon_nodup]|].
  exists found, p. split; [exact E|]. split; [exact (pentagon_extreme p P1)|]. split; [exact P2|].
  destruct (pentagon_extreme p P1) as (l1 & l2 & EQ & N). intros H. apply N. revert H. apply hull_incl. intros q Q. pose proof (I q Q) as J. rewrite EQ in J. apply in_app_iff in J as [J|[J|J]]; apply in_or_app; [left; exact J|subst; contradiction|right; exact J].
Qed.
(** the corners of a cube, the centre of a face, the centre, and a corner again *)
Definition cube : list z3 := [(0, 0, 0); (2, 0, 0); (0, 2, 0); (2, 2, 0); (0, 0, 2); (2, 0, 2); (0, 2, 2); (2, 2, 2); (1, 1, 0); (1, 1, 1); (2, 2, 2)]%Z.
Lemma cube_grid p : In p (units cube) -> on_grid 1 2 p.
Proof.
  intros I. apply in_map_iff in I as ([[x y] z] & <- & I). exists x, y, z. split; [reflexivity|]. cbn [to_r rx ry rz].
  repeat destruct I as [E|I]; try contradiction; injection E as <- <- <-; repeat split; apply abs_le; lra.
Qed.
Lemma cube_solid : ~ on_one_plane (units cube).
Proof.
  intros (nv & h & NZ & PL). pose proof (flat_vol (units cube) nv h NZ PL 0 1 2 4) as F. specialize (F ltac:(cbn; lia) ltac:(cbn; lia) ltac:(cbn; lia) ltac:(cbn; lia)).
  unfold pt, units in F. cbn [map nth cube] in F. rewrite vol_to_r in F by lra. cbn in F. lra.
Qed.
Lemma cube_coplanar : ~ no_four_coplanar (units cube).
Proof. intros H. apply (H 0 1 2 3 (to_r 1 (0, 0, 0)%Z) (to_r 1 (2, 0, 0)%Z) (to_r 1 (0, 2, 0)%Z) (to_r 1 (2, 2, 0)%Z))%nat; [repeat constructor; cbn; lia|reflexivity..|]. rewrite vol_to_r by lra. cbn. lra. Qed.
