(** The first simplex of points that are not on one plane is not flat. *)
From Coq Require Import List Arith Bool Reals Lra Lia ZArith Permutation.
From Verif Require Import Base LoopFacts ModelPlane ModelQuickhull SpecQuickhull ProofQhGeo ProofQhMesh ProofQhRidge ProofQhWalk ProofQhStep ProofQhDet ProofQhBasis ProofQhFlat.
Import ListNotations.
Local Open Scope R_scope.

(** the squared length of what is left of a point *)
Definition rest_sq (pts : list v3r) (origin : v3r) (qs : list (list R)) (i : nat) : R :=
  let pr := project qs (minus (comps (pt pts i)) (comps origin)) in dot_from 0 pr pr.
Lemma furthest_best pts origin qs : forall l pos dist best, (forall i, In i l -> (i < length pts)%nat) ->
  exists b, furthest pts origin qs l pos dist best = Ok b /\
    ((b = best /\ forall i, In i l -> rest_sq pts origin qs i <= dist) \/ exists j, (j < length l)%nat /\ b = Some (pos + j)%nat /\ dist < rest_sq pts origin qs (nth j l 0%nat)).
Proof.
  induction l as [|i l IH]; intros pos dist best B; cbn [furthest]; [exists best; split; [reflexivity|left; split; [reflexivity|intros i []]]|].
  rewrite (get_ok pts i (RV 0 0 0)) by (apply B; left; reflexivity). cbn [bind]. fold (pt pts i).
  destruct (Rlt_dec dist _) as [X|X].
  - match goal with |- exists b, furthest _ _ _ _ _ ?d ?bb = _ /\ _ => destruct (IH (S pos) d bb (fun k Q => B k (or_intror Q))) as (b & E & D) end.
    exists b. split; [exact E|right]. destruct D as [[D _]|(j & D1 & D2 & D3)]; [exists 0%nat; rewrite Nat.add_0_r; cbn [length nth]; split; [lia|split; [exact D|exact X]]|].
    exists (S j). cbn [length nth]. rewrite Nat.add_succ_r. split; [lia|]. split; [exact D2|]. eapply Rlt_trans; [exact X|exact D3].
  - destruct (IH (S pos) dist best (fun k Q => B k (or_intror Q))) as (b & E & D). exists b. split; [exact E|].
    destruct D as [[D D']|(j & D1 & D2 & D3)]; [left; split; [exact D|]|right; exists (S j); cbn [length nth]; rewrite Nat.add_succ_r; split; [lia|split; [exact D2|exact D3]]].
    intros k [<-|Ik]; [apply Rnot_lt_le; exact X|exact (D' k Ik)].
Qed.

Lemma project_dot1 n0 n1 n2 g0 g1 g2 w0 w1 w2 : exists s,
  dot_from 0 [n0; n1; n2] (project [[g0; g1; g2]] [w0; w1; w2]) = (n0 * w0 + n1 * w1 + n2 * w2) - s * (n0 * g0 + n1 * g1 + n2 * g2).
Proof. exists (g0 * w0 + g1 * w1 + g2 * w2). cbn. ring. Qed.
Lemma project_dot2 n0 n1 n2 g0 g1 g2 h0 h1 h2 w0 w1 w2 : exists s t,
  dot_from 0 [n0; n1; n2] (project [[g0; g1; g2]; [h0; h1; h2]] [w0; w1; w2]) = (n0 * w0 + n1 * w1 + n2 * w2) - s * (n0 * g0 + n1 * g1 + n2 * g2) - t * (n0 * h0 + n1 * h1 + n2 * h2).
Proof. exists (g0 * w0 + g1 * w1 + g2 * w2), (h0 * w0 + h1 * w1 + h2 * w2). cbn. ring. Qed.
Lemma project_line u0 u1 u2 w0 w1 w2 x : x * x * (u0 * u0 + u1 * u1 + u2 * u2) = 1 -> u1 * w2 - u2 * w1 = 0 -> u2 * w0 - u0 * w2 = 0 -> u0 * w1 - u1 * w0 = 0 ->
  project [[x * u0; x * u1; x * u2]] [w0; w1; w2] = [0; 0; 0].
Proof.
  intros EX C0 C1 C2. cbn. assert (forall t : R, t * (x * x * (u0 * u0 + u1 * u1 + u2 * u2)) = t) as ONE by (intros t; rewrite EX; ring).
  f_equal; [|f_equal; [|f_equal]].
  - rewrite <- (ONE w0) at 1. transitivity (x * x * (u2 * (u2 * w0 - u0 * w2) - u1 * (u0 * w1 - u1 * w0))); [ring|]. rewrite C1, C2. ring.
  - rewrite <- (ONE w1) at 1. transitivity (x * x * (u0 * (u0 * w1 - u1 * w0) - u2 * (u1 * w2 - u2 * w1))); [ring|]. rewrite C0, C2. ring.
  - rewrite <- (ONE w2) at 1. transitivity (x * x * (u1 * (u1 * w2 - u2 * w1) - u0 * (u2 * w0 - u0 * w2))); [ring|]. rewrite C0, C1. ring.
Qed.

Section Span.
Variables (eps : R) (pts : list v3r) (k : Z) (M : R).
Let n := length pts.
Let P := pt pts.
Hypothesis Eps : 0 <= eps.
Hypothesis Kp : (0 < k)%Z.
Hypothesis M0 : 0 < M.
Hypothesis EK1 : eps * IZR k < 1.
Hypothesis EK2 : eps * (4 * M * IZR k ^ 2) < 1.
Hypothesis OG : forall p, In p pts -> on_grid k M p.
Hypothesis NP : ~ on_one_plane pts.
Hypothesis N1 : (0 < n)%nat.

Lemma off_plane nv o : nv <> RV 0 0 0 -> exists i, (i < n)%nat /\ rvdot nv (rvsub (P i) (P o)) <> 0.
Proof.
  intros NZ. destruct (Exists_dec (fun i => rvdot nv (rvsub (P i) (P o)) <> 0) (seq 0 n)) as [X|X].
  - intros i. destruct (Req_EM_T (rvdot nv (rvsub (P i) (P o))) 0) as [E|E]; [right; tauto|left; exact E].
  - apply Exists_exists in X as (i & I & E). apply in_seq in I. exists i. split; [lia|exact E].
  - exfalso. apply NP. exists nv, (rvdot nv (P o)). split; [exact NZ|]. intros p Ip. destruct (In_nth _ _ (RV 0 0 0) Ip) as (i & Bi & E). fold (pt pts i) in E. fold P in E.
    destruct (Req_dec (rvdot nv p) (rvdot nv (P o))) as [Y|Y]; [exact Y|exfalso]. apply X, Exists_exists. exists i. split; [apply in_seq; unfold n; lia|]. rewrite E. intros Z. apply Y. revert Z. unfold rvdot, rvsub. cbn [rx ry rz]. lra.
Qed.
Lemma left_out basis out i : basis_ok pts basis out -> (i < n)%nat -> ~ In i basis -> In i out.
Proof. intros BO B N. assert (In i (basis ++ out)) as I by (apply (Permutation_in i (Permutation_sym BO)), in_seq; fold n; lia). apply in_app_iff in I as [I|I]; [contradiction|exact I]. Qed.
Lemma steal_gen basis out o packed : basis_ok pts basis out -> last (map Some basis) None = Some o ->
  householder eps 0 (length basis - 1) (map (fun i => minus (comps (P i)) (comps (P o))) (firstn (length basis - 1) basis)) = Some packed ->
  let D := rest_sq pts (P o) (map (fun i => transform 0 packed (unit_row i)) (seq 0 (length basis - 1))) in
  (exists i, In i out /\ 0 < D i) ->
  exists i out', steal_best eps pts basis out = Ok (Some (basis ++ [i], out')) /\ basis_ok pts (basis ++ [i]) out' /\ (i < n)%nat /\ 0 < D i.
Proof.
  intros BO L H D (i0 & I0' & X). unfold steal_best. rewrite L. cbn [of_option bind].
  assert (In o basis) as IO.
  { clear - L. induction basis as [|x l IH]; [discriminate|]. cbn [map last] in L. destruct l as [|y l]; [cbn in L; injection L as ->; left; reflexivity|right; apply IH; exact L]. }
  rewrite (get_ok pts o (RV 0 0 0)) by (apply (basis_in _ _ _ _ BO), in_or_app; left; exact IO). cbn [bind]. fold (pt pts o). fold P.
  assert (forall l, incl l basis -> mapM (fun i => p <- get pts i ;; Ok (minus (comps p) (comps (P o)))) l = Ok (map (fun i => minus (comps (P i)) (comps (P o))) l)) as EM.
  { induction l as [|x l IH]; intros IN; cbn [mapM map]; [reflexivity|]. rewrite (get_ok pts x (RV 0 0 0)) by (apply (basis_in _ _ _ _ BO), in_or_app; left; apply IN; left; reflexivity). cbn [bind]. rewrite IH by (intros y Y; apply IN; right; exact Y). reflexivity. }
  rewrite EM by (intros y Y; rewrite <- (firstn_skipn (length basis - 1) basis); apply in_or_app; left; exact Y). cbn [bind]. rewrite H.
  assert (forall j, In j out -> (j < n)%nat) as BOut by (intros j J; apply (basis_in _ _ _ _ BO), in_or_app; right; exact J).
  match goal with |- context [furthest ?a ?b ?c ?d ?e ?f ?g] => destruct (furthest_best a b c d e f g BOut) as (best & EF & Q) end. fold D in Q. rewrite EF. cbn [bind].
  destruct Q as [[_ Q]|(j & BJ & -> & DJ)]; [specialize (Q i0 I0'); lra|]. cbn [Nat.add].
  rewrite (get_ok out j 0%nat) by exact BJ. cbn [bind]. eexists _, _. split; [reflexivity|]. split; [|split; [apply BOut, nth_In; exact BJ|exact DJ]].
  unfold basis_ok. rewrite <- app_assoc. eapply perm_trans; [|exact BO]. apply Permutation_app_head. cbn [app]. apply Permutation_sym. apply take_at. exact BJ.
Qed.
Lemma rest_pos origin qs i nv : (let pr := project qs (minus (comps (P i)) (comps origin)) in length pr = 3%nat /\ dot_from 0 nv pr <> 0) -> length nv = 3%nat -> 0 < rest_sq pts origin qs i.
Proof.
  cbn zeta. intros [L N] LN. unfold rest_sq. fold P. set (pr := project _ _) in *. destruct (Rlt_dec 0 (dot_from 0 pr pr)) as [X|X]; [exact X|exfalso].
  apply (project_zero pr L) in X. rewrite X in N. apply N. destruct nv as [|p [|q [|r [|? ?]]]]; try discriminate. cbn. ring.
Qed.
Lemma span_1 o out : basis_ok pts [o] out -> exists i out', steal_best eps pts [o] out = Ok (Some ([o; i], out')) /\ basis_ok pts [o; i] out' /\ P o <> P i.
Proof.
  intros BO. destruct (steal_gen [o] out o [] BO eq_refl eq_refl) as (i & out' & E & BO' & Bi & D).
  - destruct (off_plane (RV 1 0 0) o) as (i & Bi & N); [intros X; injection X; lra|]. exists i. split.
    + apply (left_out [o]); [exact BO|exact Bi|]. intros [->|[]]. apply N. unfold rvdot, rvsub. cbn [rx ry rz]. ring.
    + apply (rest_pos _ _ _ [1; 0; 0]); [|reflexivity]. split; [reflexivity|]. cbn. unfold rvdot, rvsub in N. cbn [rx ry rz] in N. lra.
  - exists i, out'. split; [exact E|]. split; [exact BO'|]. intros X. unfold rest_sq in D. fold P in D. rewrite <- X in D. cbn in D. match type of D with 0 < ?e => replace e with 0 in D by ring end. lra.
Qed.
Lemma span_2 o a out : basis_ok pts [o; a] out -> P o <> P a ->
  exists i out', steal_best eps pts [o; a] out = Ok (Some ([o; a; i], out')) /\ basis_ok pts [o; a; i] out' /\ rvcross (rvsub (P o) (P i)) (rvsub (P a) (P i)) <> RV 0 0 0.
Proof.
  intros BO NE. assert (o < n /\ a < n)%nat as [Bo Ba] by (split; apply (basis_in _ _ _ _ BO); cbn; auto).
  pose proof (diff_far eps pts k M Kp EK1 OG o a Bo Ba NE) as FA. fold P in FA. cbn zeta in FA. set (u := rvsub (P o) (P a)) in *.
  destruct (basis_1 eps (rx u) (ry u) (rz u) Eps FA) as (v & x & EH & ET & EX).
  destruct (steal_gen [o; a] out a [v] BO eq_refl EH) as (i & out' & E & BO' & Bi & D).
  - assert (exists nv, nv <> RV 0 0 0 /\ rvdot nv u = 0) as (nv & NZ & OU).
    { destruct (Req_EM_T (rx u) 0) as [X|X].
      - exists (RV 1 0 0). split; [intros Y; injection Y; lra|]. unfold rvdot. cbn [rx ry rz]. rewrite X. ring.
      - exists (RV (- ry u) (rx u) 0). split; [intros Y; apply X; exact (f_equal ry Y)|]. unfold rvdot. cbn [rx ry rz]. ring. }
    destruct (off_plane nv a NZ) as (i & Bi & N). exists i. split.
    + apply (left_out [o; a]); [exact BO|exact Bi|]. intros [->|[->|[]]]; apply N; [exact OU|unfold rvdot, rvsub; cbn [rx ry rz]; ring].
    + cbn [length Nat.sub seq map]. rewrite ET. apply (rest_pos _ _ _ [rx nv; ry nv; rz nv]); [|reflexivity]. split; [reflexivity|].
      unfold minus, comps. cbn [combine map]. match goal with |- dot_from 0 [?a; ?b; ?c] (project [[?d; ?e; ?f]] [?g; ?h; ?l]) <> 0 => destruct (project_dot1 a b c d e f g h l) as (s & ->) end.
      intros Z. apply N. unfold rvdot in OU |- *. transitivity ((rx nv * rx (rvsub (P i) (P a)) + ry nv * ry (rvsub (P i) (P a)) + rz nv * rz (rvsub (P i) (P a))) - s * x * (rx nv * rx u + ry nv * ry u + rz nv * rz u)); [rewrite OU; ring|].
      rewrite <- Z. unfold rvsub at 1 2 3. cbn [rx ry rz]. ring.
  - exists i, out'. split; [exact E|]. split; [exact BO'|]. intros C.
    cbn [length Nat.sub seq map] in D. rewrite ET in D. unfold rest_sq in D. fold P in D.
    unfold minus, comps in D. cbn [combine map] in D. rewrite project_line in D; [cbn in D; lra|exact EX|..]; unfold u; clear - C; injection C as C0 C1 C2; unfold rvcross, rvsub in *; cbn [rx ry rz] in *; lra.
Qed.
Lemma span_3 o a b out : basis_ok pts [o; a; b] out -> rvcross (rvsub (P o) (P b)) (rvsub (P a) (P b)) <> RV 0 0 0 ->
  exists i out', steal_best eps pts [o; a; b] out = Ok (Some ([o; a; b; i], out')) /\ basis_ok pts [o; a; b; i] out' /\ vol (P o) (P a) (P b) (P i) <> 0.
Proof.
  intros BO NC. assert (o < n /\ a < n /\ b < n)%nat as (Bo & Ba & Bb) by (repeat split; apply (basis_in _ _ _ _ BO); cbn; auto).
  assert (P o <> P b) as NE by (intros X; apply NC; rewrite X; unfold rvcross, rvsub; cbn [rx ry rz]; f_equal; ring).
  pose proof (diff_far eps pts k M Kp EK1 OG o b Bo Bb NE) as FA. pose proof (cross_far eps pts k M Kp M0 EK2 OG o a b Bo Ba Bb NC) as FC. fold P in FA, FC. cbn zeta in FA, FC.
  set (u := rvsub (P o) (P b)) in *. set (w := rvsub (P a) (P b)) in *.
  destruct (basis_2 eps (rx u) (ry u) (rz u) (rx w) (ry w) (rz w) Eps FA FC) as (v & v' & x & y & z & EH & _).
  destruct (basis_2_or eps (rx u) (ry u) (rz u) (rx w) (ry w) (rz w) Eps) as [Bad|(p & p' & x' & y' & z' & EH' & T1 & T2 & O1 & O2 & O3)]; [congruence|]. clear EH v v' x y z.
  destruct (steal_gen [o; a; b] out b [p; p'] BO eq_refl EH') as (i & out' & E & BO' & Bi & D).
  - destruct (off_plane (rvcross u w) b NC) as (i & Bi & N). exists i. split.
    + apply (left_out [o; a; b]); [exact BO|exact Bi|]. intros [->|[->|[->|[]]]]; apply N; [unfold u, w|unfold u, w|]; unfold rvdot, rvsub, rvcross; cbn [rx ry rz]; ring.
    + cbn [length Nat.sub seq map]. rewrite T1, T2. apply (rest_pos _ _ _ [rx (rvcross u w); ry (rvcross u w); rz (rvcross u w)]); [|reflexivity]. split; [reflexivity|].
      unfold minus, comps. cbn [combine map]. match goal with |- dot_from 0 [?a; ?b; ?c] (project [[?d; ?e; ?f]; [?d'; ?e'; ?f']] [?g; ?h; ?l]) <> 0 => destruct (project_dot2 a b c d e f d' e' f' g h l) as (s & t & ->) end.
      intros Z. apply N. unfold rvdot. rewrite <- Z. unfold rvcross, rvsub at 1 2 3. cbn [rx ry rz]. ring.
  - exists i, out'. split; [exact E|]. split; [exact BO'|]. intros V. cbn [length Nat.sub seq map] in D. rewrite T1, T2 in D. unfold rest_sq in D. fold P in D.
    unfold minus, comps in D. cbn [combine map] in D. rewrite project_plane in D; [cbn in D; lra|assumption..|]. rewrite <- V. unfold u, w, dot3, vol, rvdot, rvcross, rvsub. cbn [rx ry rz]. ring.
Qed.
Lemma affine_basis_ok : exists a b c d out, affine_basis eps pts (seq 0 n) = Ok ([a; b; c; d], out) /\ basis_ok pts [a; b; c; d] out /\ vol (P a) (P b) (P c) (P d) <> 0.
Proof.
  assert (seq 0 n = 0%nat :: seq 1 (n - 1)) as ES by (destruct n as [|m]; [lia|cbn; rewrite Nat.sub_0_r; reflexivity]).
  rewrite ES. unfold affine_basis. cbn [grow_basis].
  destruct (span_1 0 (seq 1 (n - 1))) as (i & o1 & E1 & B1 & D1); [unfold basis_ok; fold n; rewrite ES; apply Permutation_refl|].
  rewrite E1. cbn [bind grow_basis]. destruct (span_2 _ _ _ B1 D1) as (j & o2 & E2 & B2 & D2). rewrite E2. cbn [bind grow_basis].
  destruct (span_3 _ _ _ _ B2 D2) as (h & o3 & E3 & B3 & D3). rewrite E3. cbn [bind]. exists 0%nat, i, j, h, o3. split; [reflexivity|]. split; [exact B3|exact D3].
Qed.
End Span.
