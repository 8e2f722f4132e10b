(** Counterexamples and concrete cases for the curve properties. *)
From Coq Require Import List ZArith QArith Qcanon Lia Bool.
From Verif Require Import Base BaseFacts ModelVec ModelAabb ModelNurbs SpecAabb SpecNurbs SpecCurve
  ProofNurbsTop ProofNurbsMisc.
Import ListNotations.
Open Scope Qc_scope.

Definition sorted_b (U : list Qc) : bool :=
  forallb (fun i => forallb (fun j => nth i U 0 <=? nth j U 0) (seq i (length U - i))) (seq 0 (length U)).
Lemma sorted_b_ok U : sorted_b U = true -> sorted U.
Proof.
  unfold sorted_b. rewrite forallb_forall. intros H i j Hij Hj.
  specialize (H i ltac:(apply in_seq; lia)). rewrite forallb_forall in H.
  specialize (H j ltac:(apply in_seq; lia)). qcb. exact H.
Qed.
Definition good_b (c : ncurve) (n : nat) : bool :=
  Nat.eqb (length (nc_cps c)) (S n) && Nat.leb (nc_degree c) n && Nat.eqb (length (nc_knots c)) (n + nc_degree c + 2)
  && sorted_b (nc_knots c) && (knot (nc_knots c) n <? knot (nc_knots c) (n + 1)) && Nat.leb (nc_degree c) 8.
Lemma good_b_ok c n : good_b c n = true -> good_curve c n.
Proof.
  unfold good_b. rewrite !andb_true_iff. intros (((((A & B) & C) & D) & E) & F).
  apply Nat.eqb_eq in A. apply Nat.leb_le in B. apply Nat.eqb_eq in C. apply sorted_b_ok in D. apply Nat.leb_le in F.
  repeat split; try assumption. qcb. exact E.
Qed.

Definition get_ok {A} (d : A) (r : res A) : A := match r with Ok x => x | _ => d end.

(** equality of computed rationals, whose canonicity proofs may differ *)
Lemma v3_ok_eq (r : res vec3) a b c :
  match r with Ok v => Qceqb (vx v) a && Qceqb (vy v) b && Qceqb (vz v) c | _ => false end = true -> r = Ok (V3 a b c).
Proof.
  destruct r as [[x y z]| |]; try discriminate. cbn [vx vy vz]. rewrite !andb_true_iff. intros ((A & B) & C). qcb. subst. reflexivity.
Qed.
Fixpoint list_eqb (l m : list Qc) : bool :=
  match l, m with [], [] => true | x :: l', y :: m' => Qceqb x y && list_eqb l' m' | _, _ => false end.
Lemma list_eqb_ok l : forall m, list_eqb l m = true -> l = m.
Proof.
  induction l as [|x l IH]; intros [|y m]; cbn [list_eqb]; try discriminate; [reflexivity|].
  rewrite andb_true_iff. intros [A B]. qcb. subst. f_equal. apply IH. exact B.
Qed.

Definition rat_cps : list vec4 := [V4 0 0 0 1; V4 (qc 2 1) 0 0 (qc 2 1)].
Definition rat_curve : ncurve := get_ok nc_default (nc_make rat_cps 1 false).

Lemma rat_positive : positive_weights rat_cps.
Proof. intros q [<-|[<-|[]]]; reflexivity. Qed.

Lemma rational_box_witness :
  exists cps p c u pt, positive_weights cps /\ nc_make cps p false = Ok c /\ good_curve c 1 /\ in_curve c 1 u /\
    evaluate c u = Ok pt /\ ~ inside (nc_aabb c) pt.
Proof.
  exists rat_cps, 1%nat, rat_curve, 1, (V3 (qc 2 1) 0 0). split; [exact rat_positive|].
  split; [vm_compute; reflexivity|]. split; [apply good_b_ok; vm_compute; reflexivity|].
  split; [split; vm_compute; discriminate|]. split; [apply v3_ok_eq; vm_compute; reflexivity|].
  intros H. destruct (H AX) as [_ H2]. revert H2. vm_compute. intros H2. apply H2. reflexivity.
Qed.

Lemma rational_insert_witness :
  exists cps c c' t u pt pt', positive_weights cps /\ nc_make cps 1 false = Ok c /\ good_curve c 1 /\ in_curve c 1 u /\
    insert_knot c t 1 = Ok c' /\ evaluate c u = Ok pt /\ evaluate c' u = Ok pt' /\ pt <> pt'.
Proof.
  exists rat_cps, rat_curve, (get_ok nc_default (insert_knot rat_curve (qc 1 2) 1)), (qc 1 2), (qc 1 2), (V3 (qc 4 3) 0 0), (V3 1 0 0).
  split; [exact rat_positive|]. split; [vm_compute; reflexivity|]. split; [apply good_b_ok; vm_compute; reflexivity|].
  split; [split; vm_compute; discriminate|]. split; [vm_compute; reflexivity|]. split; [apply v3_ok_eq; vm_compute; reflexivity|].
  split; [apply v3_ok_eq; vm_compute; reflexivity|]. vm_compute. discriminate.
Qed.

Lemma move_witness :
  exists c pts k1 k2, nc_make pts 1 true = Ok c /\ nc_move c <> c /\
    (exists c1, nc_set_control_points c (firstn 2 pts) = Ok c1 /\ nc_knots c1 = k1) /\
    (exists c2, nc_set_control_points (nc_move c) (firstn 2 pts) = Ok c2 /\ nc_knots c2 = k2) /\ k1 <> k2.
Proof.
  set (pts := [V4 0 0 0 1; V4 1 0 0 1; V4 1 1 0 1]).
  set (c := get_ok nc_default (nc_make pts 1 true)).
  exists c, pts, (nc_knots (get_ok nc_default (nc_set_control_points c (firstn 2 pts)))),
    (nc_knots (get_ok nc_default (nc_set_control_points (nc_move c) (firstn 2 pts)))).
  split; [vm_compute; reflexivity|]. split; [vm_compute; discriminate|].
  split; [eexists; split; vm_compute; reflexivity|]. split; [eexists; split; vm_compute; reflexivity|].
  vm_compute. discriminate.
Qed.

Lemma move_partial :
  (forall c, nc_copy c = c) /\ (forall c, nc_periodic c = false -> nc_move c = c) /\
  (forall c u, evaluate (nc_move c) u = evaluate c u).
Proof.
  split; [intros []; reflexivity|]. split; [|reflexivity]. intros []. cbn. intros ->. reflexivity.
Qed.

Lemma stale_box_witness :
  exists c pts c' u pt, unit_weights pts /\ nc_set_control_points c pts = Ok c' /\ good_curve c' 1 /\ in_curve c' 1 u /\
    evaluate c' u = Ok pt /\ ~ inside (nc_aabb c') pt.
Proof.
  set (c := get_ok nc_default (nc_make3 [V3 0 0 0; V3 1 0 0] 1 false)).
  set (pts := [V4 0 0 0 1; V4 (qc 5 1) 0 0 1]).
  exists c, pts, (get_ok nc_default (nc_set_control_points c pts)), 1, (V3 (qc 5 1) 0 0).
  split; [intros q [<-|[<-|[]]]; reflexivity|]. split; [vm_compute; reflexivity|].
  split; [apply good_b_ok; vm_compute; reflexivity|]. split; [split; vm_compute; discriminate|].
  split; [apply v3_ok_eq; vm_compute; reflexivity|].
  intros H. destruct (H AX) as [_ H2]. revert H2. vm_compute. intros H2. apply H2. reflexivity.
Qed.

Lemma insert_keeps : forall c n t r, good_curve c n -> knot (nc_knots c) (nc_degree c) <= t -> t < knot (nc_knots c) (n + 1) ->
  separated (nc_knots c) t -> (r + multiplicity (nc_knots c) t <= nc_degree c)%nat -> unit_weights (nc_cps c) ->
  exists c', insert_knot c t r = Ok c' /\
    forall u, in_curve c n u -> exists pt, evaluate c u = Ok pt /\ evaluate c' u = Ok pt.
Proof.
  intros c n t r G T1 T2 S M W. destruct (insert_top c n t r G T1 T2 S M) as (c' & E & _ & _ & _ & _ & _ & _ & _ & _ & _ & H).
  exists c'. split; [exact E|]. apply H. exact W.
Qed.

(** ** a concrete curve *)
Definition demo_points : list vec3 := [V3 0 0 0; V3 1 (qc 2 1) 0; V3 (qc 3 1) (qc 1 1) 0; V3 (qc 4 1) 0 1].
Definition demo : ncurve := get_ok nc_default (nc_make3 demo_points 2 false).

Lemma demo_ok :
  nc_make3 demo_points 2 false = Ok demo /\ good_curve demo 3 /\ unit_weights (nc_cps demo) /\ interval_current demo /\
  in_curve demo 3 (qc 1 2) /\ separated (nc_knots demo) (qc 1 2) /\ multiplicity (nc_knots demo) (qc 1 2) = 0%nat /\
  clamped 3 2 (nc_knots demo) /\ nc_knots demo = repeat 0 3 ++ runs [(1, 1%nat)] ++ repeat (qc 2 1) 3 /\
  gaps 0 [1; qc 2 1] /\ (forall q, In q (nc_cps demo) -> inside (nc_aabb demo) (xyz q)).
Proof.
  destruct (make3_top demo_points 2 ltac:(cbn; lia) ltac:(lia)) as (c & n & E & L & GC & _ & D & UW & _ & CL & _ & IC & _ & _ & _ & _ & BX & _).
  assert (c = demo) as -> by (unfold demo; rewrite E; reflexivity). assert (n = 3%nat) as -> by (cbn in L; lia).
  split; [exact E|]. split; [exact GC|]. split; [exact UW|]. split; [exact IC|]. clear E L GC D UW IC.
  split; [split; vm_compute; discriminate|]. split.
  { intros x Hx. revert Hx. vm_compute. intros Hx. right.
    repeat match type of Hx with _ \/ _ => destruct Hx as [<-|Hx] end; try contradiction; vm_compute; auto. }
  split; [vm_compute; reflexivity|]. split; [exact CL|]. split; [apply list_eqb_ok; vm_compute; reflexivity|].
  split; [split; [vm_compute; reflexivity|split; [vm_compute; reflexivity|exact I]]|]. exact BX.
Qed.

Lemma demo_inserts_ok : exists c', insert_knot demo (qc 1 2) 2 = Ok c' /\ evaluate c' (qc 1 2) = evaluate demo (qc 1 2).
Proof. exists (get_ok nc_default (insert_knot demo (qc 1 2) 2)). split; [vm_compute; reflexivity|].
  transitivity (Ok (V3 1 (qc 11 8) 0)); [|symmetry]; apply v3_ok_eq; vm_compute; reflexivity.
Qed.

Lemma demo_decomposes_ok : exists q1 q2, decompose demo = Ok [q1; q2].
Proof. eexists _, _. vm_compute. reflexivity. Qed.

Lemma demo9_ok : exists c, nc_make3 (repeat (V3 0 0 0) 10) 9 false = Ok c /\ valid_knots 9 9 (nc_knots c) /\ in_curve c 9 0 /\ nc_degree c = 9%nat.
Proof.
  destruct (knots_top (repeat (V3 0 0 0) 10) 9 ltac:(cbn; lia)) as (c & n & E & L & V & _). assert (n = 9%nat) as -> by (cbn in L; lia).
  exists c. split; [exact E|]. split; [exact V|]. revert E. vm_compute nc_make3. intros E. injection E as <-.
  split; [split; vm_compute; discriminate|reflexivity].
Qed.
