(** Hulls in doubles: a grid, and a triangle that is lost. *)
From Coq Require Import List ZArith QArith Qcanon Bool Lia.
From Verif Require Import Base BaseFacts ModelVec ModelPolygon ModelRound ModelRoundHull SpecPolygon SpecRound SpecRoundHull ProofRoundDouble ProofRoundAll WitnessPolygon.
Import ListNotations.
Open Scope Qc_scope.

(** a triangle with corners up to 2^28 from the origin *)
Definition sliver : list vec2 := [vi 0 0; vi 134217728 134217729; vi 268435455 268435457].
Lemma doubles_plain : in_doubles never_fused.
Proof. split; [reflexivity|]. intros k. left. reflexivity. Qed.
Lemma sliver_lost : exists fl P R, in_doubles fl /\ clear_position lit_1em9 P /\ not_collinear P /\ (forall p, In p P -> on_grid 0 29 p) /\
  convex_hull2d isort P = Ok R /\ convex_ccw R /\ fconvex_hull2d fl isort P = Ok [].
Proof.
  exists never_fused, sliver, [vi 0 0; vi 134217728 134217729; vi 268435455 268435457].
  split; [exact doubles_plain|]. split; [apply clear_b_ok; vm_compute; reflexivity|].
  split; [exists (vi 0 0), (vi 134217728 134217729), (vi 268435455 268435457); repeat (split; [cbn; tauto|]); vm_compute; discriminate|].
  split.
  { assert (forall x y, (Z.abs x < 2 ^ 29)%Z -> (Z.abs y < 2 ^ 29)%Z -> on_grid 0 29 (vi x y)) as K.
    { intros x y A B. exists x, y. split; [exact A|]. split; [exact B|]. rewrite p2_0. cbn [vi ux uy]. split; ring. }
    intros p [<-|[<-|[<-|[]]]]; apply K; reflexivity. }
  split; [vm_compute; reflexivity|]. split; [apply ccw_b_ok; vm_compute; reflexivity|]. vm_compute. reflexivity.
Qed.
Lemma grid_case : in_doubles never_fused /\ in_doubles always_fused /\ (forall p, In p grid -> on_grid 0 25 p) /\ sorts (@isort vec2) /\ not_collinear grid.
Proof.
  split; [exact doubles_plain|]. split; [split; [reflexivity|intros [|k]; [left|right]; reflexivity]|]. split; [|split; [exact isort_sorts|exact grid_solid]].
  assert (forall x y, (Z.abs x < 2 ^ 25)%Z -> (Z.abs y < 2 ^ 25)%Z -> on_grid 0 25 (vi x y)) as K.
  { intros x y A B. exists x, y. split; [exact A|]. split; [exact B|]. rewrite p2_0. cbn [vi ux uy]. split; ring. }
  intros p H. cbn in H. repeat (destruct H as [<-|H]; [apply K; reflexivity|]). destruct H.
Qed.
Lemma isort_ext {A} (c c' : A -> A -> bool) l : (forall a b, c a b = c' a b) -> isort c l = isort c' l.
Proof.
  intros E. assert (forall x l, insert c x l = insert c' x l) as EI.
  { intros x. induction l0 as [|y l0 IH]; [reflexivity|]. cbn [insert]. rewrite !E, ?IH. reflexivity. }
  induction l as [|x l IH]; [reflexivity|]. cbn [isort fold_right]. unfold isort in IH. rewrite IH. apply EI.
Qed.
