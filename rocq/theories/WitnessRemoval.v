(** A knot that cannot be taken out, and knots that can. *)
From Coq Require Import List ZArith QArith Qcanon Lia Lqa Bool.
From Verif Require Import Base BaseFacts ModelVec ModelNurbs ModelRefine SpecNurbs SpecCurve SpecRefine
  ProofBspline ProofInsertion ProofInsertCurve ProofInsertKnot ProofMinimize ProofSmooth ProofRemoval WitnessNurbs WitnessRefine.
Import ListNotations.
Open Scope Qc_scope.

(** a cubic whose middle point is far off the line of the others *)
Definition spike_knots : list Qc := [0; 0; 0; 0; qc 1 2; 1; 1; 1; 1].
Definition spike : list vec4 := [V4 0 0 0 1; V4 1 0 0 1; V4 (qc 2 1) (qc 100 1) 0 1; V4 (qc 3 1) 0 0 1; V4 (qc 4 1) 0 0 1].
Definition plain_knots : list Qc := [0; 0; 0; 0; 1; 1; 1; 1].

Lemma spike_case : valid_knots 4 3 spike_knots /\ length spike = 5%nat /\ knot spike_knots 3 < qc 1 2 /\ qc 1 2 < knot spike_knots (4 + 1) /\ separated spike_knots (qc 1 2) /\ multiplicity spike_knots (qc 1 2) = 1%nat.
Proof.
  split; [apply valid_b_ok; vm_compute; reflexivity|]. split; [reflexivity|]. split; [reflexivity|]. split; [reflexivity|]. split; [|vm_compute; reflexivity].
  intros x Hx. cbn in Hx. repeat (destruct Hx as [<-|Hx]; [first [left; reflexivity | right; left; reflexivity | right; right; reflexivity]|]). destruct Hx.
Qed.

Lemma within4_y a b tol : within4 a b tol -> wy a - wy b <= tol /\ wy b - wy a <= tol.
Proof.
  unfold within4. cbv zeta. intros (T & H).
  pose proof (Qcsq_nonneg (wx a - wx b)) as S1. pose proof (Qcsq_nonneg (wz a - wz b)) as S2. pose proof (Qcsq_nonneg (ww a - ww b)) as S3.
  set (d := wy a - wy b) in *. replace (wy b - wy a) with (- d) by (unfold d; ring). clearbody d.
  set (x := (wx a - wx b) * (wx a - wx b)) in *. set (z := (wz a - wz b) * (wz a - wz b)) in *. set (w := (ww a - ww b) * (ww a - ww b)) in *. clearbody x z w.
  split; apply Qcnot_lt_le; intros C.
  - pose proof (Qcmul_pos (d - tol) (d + tol) ltac:(qc_lra) ltac:(qc_lra)) as K. replace ((d - tol) * (d + tol)) with (d * d - tol * tol) in K by ring. qc_lra.
  - pose proof (Qcmul_pos (- d - tol) (- d + tol) ltac:(qc_lra) ltac:(qc_lra)) as K. replace ((- d - tol) * (- d + tol)) with (d * d - tol * tol) in K by ring. qc_lra.
Qed.

(** no cubic without the knot is near *)
Lemma spike_stuck c c' : good_curve c 3 -> nc_degree c = 3%nat -> nc_knots c = plain_knots -> insert_knot c (qc 1 2) 1 = Ok c' ->
  nc_knots c' = spike_knots /\ exists i, (i < 5)%nat /\ ~ within4 (nth i (nc_cps c') (V4 0 0 0 0)) (nth i spike (V4 0 0 0 0)) (qc 10 1).
Proof.
  intros (HP & V & H8) ED EK EI.
  assert (separated (nc_knots c) (qc 1 2)) as SEP.
  { rewrite EK. intros x Hx. cbn in Hx. repeat (destruct Hx as [<-|Hx]; [first [left; reflexivity | right; left; reflexivity | right; right; reflexivity]|]). destruct Hx. }
  assert (multiplicity (nc_knots c) (qc 1 2) = 0%nat) as EM by (rewrite EK; vm_compute; reflexivity).
  destruct (insert_knot_ok c 3 (qc 1 2) 1 3 HP V H8 ltac:(lia) ltac:(rewrite EK; vm_compute; discriminate) ltac:(rewrite EK; vm_compute; reflexivity) SEP ltac:(rewrite EM; lia)) as (cps & kv & iv & E & EKV & _ & LC & G).
  rewrite E in EI. injection EI as <-. cbn [nc_knots nc_cps nc_set_interval nc_set_knots nc_set_cps]. clear E. rewrite ED in G. split; [rewrite EKV, EK; reflexivity|]. clear EKV.
  pose proof (pq_mid (knot (nc_knots c)) 3 (qc 1 2) 3 0 (fun i => wy (nth i (nc_cps c) d4)) ltac:(lia) 0) as PM.
  pose proof (pq_left1 (knot (nc_knots c)) 3 (qc 1 2) 3 (fun i => wy (nth i (nc_cps c) d4)) ltac:(lia) 0 0%nat ltac:(lia)) as P0.
  pose proof (pq_right1 (knot (nc_knots c)) 3 (qc 1 2) 3 0 (fun i => wy (nth i (nc_cps c) d4)) ltac:(lia) ltac:(intros; lia) 0 4%nat ltac:(lia) ltac:(lia)) as P4.
  pose proof (PM 1%nat ltac:(lia) ltac:(lia)) as P1. pose proof (PM 2%nat ltac:(lia) ltac:(lia)) as P2. pose proof (PM 3%nat ltac:(lia) ltac:(lia)) as P3. clear PM.
  cbv zeta in P1, P2, P3. cbn [Nat.add Nat.sub] in P1, P2, P3, P4.
  assert (forall i, (1 <= i <= 3)%nat -> knot (nc_knots c) i = 0) as Z0 by (rewrite EK; intros [|[|[|[|i]]]] Hi; try lia; reflexivity).
  assert (forall i, (4 <= i <= 6)%nat -> knot (nc_knots c) i = 1) as Z1 by (rewrite EK; intros [|[|[|[|[|[|[|i]]]]]]] Hi; try lia; reflexivity).
  rewrite !Z0 in P1, P2, P3 by lia. rewrite !Z1 in P1, P2, P3 by lia.
  assert ((qc 1 2 - 0) / (1 - 0) = qc 1 2) as EH by (apply Qc_is_canon; vm_compute; reflexivity). rewrite EH in P1, P2, P3.
  assert (1 - qc 1 2 = qc 1 2) as EH' by (apply Qc_is_canon; vm_compute; reflexivity). rewrite EH' in P1, P2, P3.
  pose proof (G 0%nat ltac:(lia) wy ltac:(unfold comp4; auto)) as G0. pose proof (G 1%nat ltac:(lia) wy ltac:(unfold comp4; auto)) as G1. pose proof (G 2%nat ltac:(lia) wy ltac:(unfold comp4; auto)) as G2.
  pose proof (G 3%nat ltac:(lia) wy ltac:(unfold comp4; auto)) as G3. pose proof (G 4%nat ltac:(lia) wy ltac:(unfold comp4; auto)) as G4. clear G.
  rewrite P0 in G0. rewrite P1 in G1. rewrite P2 in G2. rewrite P3 in G3. rewrite P4 in G4. cbn [pq] in G0, G1, G2, G3, G4. clear P0 P1 P2 P3 P4.
  change d4 with (V4 0 0 0 0) in *.
  destruct (near4 (nth 0 cps (V4 0 0 0 0)) (nth 0 spike (V4 0 0 0 0)) (qc 10 1)) eqn:N0; [|exists 0%nat; split; [lia|intros W; apply near4_spec in W; congruence]].
  destruct (near4 (nth 1 cps (V4 0 0 0 0)) (nth 1 spike (V4 0 0 0 0)) (qc 10 1)) eqn:N1; [|exists 1%nat; split; [lia|intros W; apply near4_spec in W; congruence]].
  destruct (near4 (nth 2 cps (V4 0 0 0 0)) (nth 2 spike (V4 0 0 0 0)) (qc 10 1)) eqn:N2; [|exists 2%nat; split; [lia|intros W; apply near4_spec in W; congruence]].
  destruct (near4 (nth 3 cps (V4 0 0 0 0)) (nth 3 spike (V4 0 0 0 0)) (qc 10 1)) eqn:N3; [|exists 3%nat; split; [lia|intros W; apply near4_spec in W; congruence]].
  destruct (near4 (nth 4 cps (V4 0 0 0 0)) (nth 4 spike (V4 0 0 0 0)) (qc 10 1)) eqn:N4; [|exists 4%nat; split; [lia|intros W; apply near4_spec in W; congruence]].
  exfalso. apply near4_spec, within4_y in N0, N1, N2, N3, N4. rewrite G0 in N0. rewrite G1 in N1. rewrite G2 in N2. rewrite G3 in N3. rewrite G4 in N4.
  cbn [nth spike wy] in N0, N1, N2, N3, N4.
  set (x0 := wy (nth 0 (nc_cps c) _)) in *. set (x1 := wy (nth 1 (nc_cps c) _)) in *. set (x2 := wy (nth 2 (nc_cps c) _)) in *. set (x3 := wy (nth 3 (nc_cps c) _)) in *. clearbody x0 x1 x2 x3.
  clear - N0 N1 N2 N3 N4. assert (qc 1 2 + qc 1 2 = 1) as EH by (apply Qc_is_canon; vm_compute; reflexivity).
  assert (qc 10 1 + qc 10 1 + qc 10 1 + qc 10 1 + qc 10 1 + qc 10 1 + qc 10 1 + qc 10 1 + qc 10 1 + qc 10 1 = qc 100 1) as EI by (apply Qc_is_canon; vm_compute; reflexivity).
  assert (0 < qc 10 1) as ET by (vm_compute; reflexivity).
  destruct N0 as (N0 & N0'), N1 as (N1 & N1'), N2 as (N2 & N2'), N3 as (N3 & N3'), N4 as (N4 & N4').
  set (h := qc 1 2) in *. set (t := qc 10 1) in *. set (hh := qc 100 1) in *. clearbody h t hh.
  assert (forall x, x * h + x * h = x) as HH by (intros x; transitivity (x * (h + h)); [ring|rewrite EH; ring]).
  pose proof (HH x0) as H0. pose proof (HH x1) as H1. pose proof (HH x2) as H2. pose proof (HH x3) as H3. clear HH EH.
  set (y0 := x0 * h) in *. set (y1 := x1 * h) in *. set (y2 := x2 * h) in *. set (y3 := x3 * h) in *. clearbody y0 y1 y2 y3.
  qc_lra.
Qed.

Lemma spike_removed : exists Q, Q = [V4 0 0 0 1; V4 (qc 2 1) 0 0 1; V4 (qc 2 1) (qc 100 1) 0 1; V4 (qc 2 1) 0 0 1] /\
  forall tol, 0 <= tol -> knot_removal 3 spike_knots spike (qc 1 2) tol 1 = Ok Q.
Proof.
  eexists. split; [reflexivity|]. intros tol T. destruct spike_case as (V & L & A & B & C & D).
  rewrite (tolerance_ignored 4 3 spike_knots spike (qc 1 2) tol 0 V L A B C ltac:(rewrite D; lia) ltac:(rewrite D; reflexivity) T ltac:(apply Qcle_refl)).
  apply ok_l4_ok. vm_compute. reflexivity.
Qed.

(** a quadratic whose knot is not removable is left alone; with a wide tolerance it goes *)
Definition bump_knots : list Qc := [0; 0; 0; qc 1 2; 1; 1; 1].
Definition bump : list vec4 := [V4 0 0 0 1; V4 1 0 0 1; V4 (qc 2 1) (qc 8 1) 0 1; V4 (qc 3 1) 0 0 1].
Lemma bump_case : valid_knots 3 2 bump_knots /\ length bump = 4%nat /\ knot bump_knots 2 < qc 1 2 /\ qc 1 2 < knot bump_knots (3 + 1) /\ separated bump_knots (qc 1 2) /\ multiplicity bump_knots (qc 1 2) = 1%nat.
Proof.
  split; [apply valid_b_ok; vm_compute; reflexivity|]. split; [reflexivity|]. split; [reflexivity|]. split; [reflexivity|]. split; [|vm_compute; reflexivity].
  intros x Hx. cbn in Hx. repeat (destruct Hx as [<-|Hx]; [first [left; reflexivity | right; left; reflexivity | right; right; reflexivity]|]). destruct Hx.
Qed.
Lemma bump_removed : knot_removal 2 bump_knots bump (qc 1 2) 1 1 = Ok [V4 0 0 0 1; V4 1 0 0 1; V4 (qc 2 1) (qc 8 1) 0 1] /\
  knot_removal 2 bump_knots bump (qc 1 2) (qc 20 1) 1 = Ok [V4 0 0 0 1; V4 (qc 2 1) 0 0 1; V4 1 (qc 16 1) 0 1].
Proof. split; apply ok_l4_ok; vm_compute; reflexivity. Qed.

Lemma tolerance_refuted :
  exists U V P u Q, valid_knots 4 3 U /\ length P = 5%nat /\ knot U 3 < u /\ u < knot U 5 /\ separated U u /\ multiplicity U u = 1%nat /\
    (forall c c', good_curve c 3 -> nc_degree c = 3%nat -> nc_knots c = V -> insert_knot c u 1 = Ok c' -> nc_knots c' = U /\
       exists i, (i < 5)%nat /\ ~ within4 (nth i (nc_cps c') (V4 0 0 0 0)) (nth i P (V4 0 0 0 0)) (qc 10 1)) /\
    (forall tol, 0 <= tol -> knot_removal 3 U P u tol 1 = Ok Q) /\
    nth 1 P (V4 0 0 0 0) = V4 1 0 0 1 /\ nth 1 Q (V4 0 0 0 0) = V4 (qc 2 1) 0 0 1.
Proof.
  destruct spike_case as (V & L & A & B & C & D). destruct spike_removed as (Q & EQ & R).
  exists spike_knots, plain_knots, spike, (qc 1 2), Q.
  split; [exact V|]. split; [exact L|]. split; [exact A|]. split; [exact B|]. split; [exact C|]. split; [exact D|]. split; [exact spike_stuck|].
  split; [exact R|]. split; [reflexivity|]. rewrite EQ. reflexivity.
Qed.
