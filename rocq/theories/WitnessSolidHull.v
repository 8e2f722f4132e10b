(** Cases for the statements about solid sets of points. *)
From Coq Require Import List ZArith QArith Qcanon Reals Qreals Bool Lia Lra.
From Verif Require Import Base ModelVec ModelPlane ModelPolygon ModelHull3 ModelQuickhull.
From Verif Require Import SpecPlane SpecQuickhull SpecSolidHull ProofPlane ProofQuickhull ProofHull3 ProofSolidHull WitnessPlane.
Import ListNotations.
Local Open Scope R_scope.

(** quickhull on rational points: its result mapped back to the points *)
Definition same_real (r : v3r) (p : vec3) : bool :=
  if Req_EM_T (rx (as_real p)) (rx r) then if Req_EM_T (ry (as_real p)) (ry r) then if Req_EM_T (rz (as_real p)) (rz r) then true else false else false else false.
Fixpoint back (l : list vec3) (rs : list v3r) : list vec3 :=
  match rs with [] => [] | r :: rs => match find (same_real r) l with Some p => p :: back l rs | None => back l rs end end.
Definition rational_quickhull (pts hull : list vec3) : res (list vec3) :=
  match convex_hull3d false (map as_real pts) (map as_real hull) with Ok rs => Ok (back (hull ++ pts) rs) | Throw e => Throw e | UB => UB end.
Lemma back_ok l : forall rs, incl rs (map as_real l) -> map as_real (back l rs) = rs.
Proof.
  induction rs as [|r rs IH]; intros I; [reflexivity|]. cbn [back]. specialize (IH (fun x H => I x (or_intror H))).
  destruct (find (same_real r) l) as [p|] eqn:E.
  - apply find_some in E as (_ & E). cbn [map]. rewrite IH. f_equal. unfold same_real in E.
    destruct (Req_EM_T _ _) as [X|]; [|discriminate]. destruct (Req_EM_T (ry _) _) as [Y|]; [|discriminate]. destruct (Req_EM_T (rz _) _) as [Z|]; [|discriminate].
    apply rv_eq; assumption.
  - exfalso. pose proof (I r (or_introl eq_refl)) as H. apply in_map_iff in H as (p & <- & H). apply (find_none _ _ E) in H. unfold same_real in H.
    destruct (Req_EM_T _ _); [|congruence]. destruct (Req_EM_T (ry _) _); [|congruence]. destruct (Req_EM_T (rz _) _); [discriminate|congruence].
Qed.
Lemma rational_runs : runs_quickhull rational_quickhull.
Proof.
  intros pts hull. unfold rational_quickhull. destruct (convex_hull3d _ _ _) as [rs| |] eqn:E; try reflexivity. rewrite back_ok; [reflexivity|].
  intros p Hp. rewrite map_app. apply in_or_app. exact (hull3d_inputs _ _ _ _ E p Hp).
Qed.

(** a tetrahedron with a point inside and the middle of an edge *)
Definition block : list vec3 := [p3 0 0 0; p3 4 0 0; p3 0 4 0; p3 1 1 1; p3 0 0 4; p3 2 0 0].
Lemma real_p3 x y z : as_real (p3 x y z) = RV (IZR x / IZR 1) (IZR y / IZR 1) (IZR z / IZR 1).
Proof.
  assert (forall n, Q2R (this (qc n 1)) = IZR n / IZR 1) as H.
  { intros n. unfold qc. rewrite (Qeq_eqR _ (n # 1)); [|unfold Q2Qc; cbn [this]; apply Qred_correct]. unfold Q2R. cbn [Qnum Qden]. unfold Rdiv. rewrite Rinv_1. reflexivity. }
  unfold as_real, p3. cbn [vx vy vz]. rewrite !H. reflexivity.
Qed.
Lemma block_ok : (forall p, In p block -> on_grid 1 4 (as_real p)) /\ In (p3 0 0 4) [p3 0 0 4; p3 2 0 0] /\ vol (as_real (p3 0 0 0)) (as_real (p3 4 0 0)) (as_real (p3 0 4 0)) (as_real (p3 0 0 4)) <> 0 /\ 16 * IZR 1 ^ 3 * 4 ^ 2 < 2 ^ 52.
Proof.
  split; [|split; [left; reflexivity|split; [|lra]]].
  - intros p H. unfold block in H. repeat (destruct H as [<-|H]; [rewrite real_p3; eexists _, _, _; split; [reflexivity|]; cbn [rx ry rz]; repeat split; apply Rabs_le; lra|]). destruct H.
  - rewrite !real_p3. unfold vol, rvdot, rvcross, rvsub. cbn [rx ry rz]. lra.
Qed.
Lemma block_fl fl : float_rounding fl -> let a := as_real (p3 0 0 0) in let b := as_real (p3 4 0 0) in let c := as_real (p3 0 4 0) in
   fl (ry a * rz b) = ry a * rz b /\ fl (ry b * rz c) = ry b * rz c /\ fl (ry c * rz a) = ry c * rz a.
Proof.
  intros F. rewrite !real_p3. cbn [rx ry rz]. assert (fl 0 = 0) as F0 by exact (fl_0 fl F).
  repeat match goal with |- context [?a / 1 * (?b / 1)] => replace (a / 1 * (b / 1)) with 0 by field end. auto.
Qed.
