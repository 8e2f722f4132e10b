(** Polygons in doubles: answers that rounding changes. *)
From Coq Require Import List ZArith QArith Qcanon Bool Lia.
From Verif Require Import Base BaseFacts ModelVec ModelAabb ModelPolygon ModelRound ModelRoundPolygon SpecPolygon SpecRound SpecRoundHull ProofRoundDouble ProofPolygon ProofSat ProofConvex
  ProofRoundPolygon WitnessPolygon WitnessRoundHull.
Import ListNotations.
Open Scope Qc_scope.

Lemma whole_grid b x y : (Z.abs x < 2 ^ b)%Z -> (Z.abs y < 2 ^ b)%Z -> on_grid 0 b (vi x y).
Proof. intros A B. exists x, y. split; [exact A|]. split; [exact B|]. rewrite p2_0. cbn [vi ux uy]. split; ring. Qed.
Ltac on_whole_grid := let p := fresh in let H := fresh in intros p H; cbn in H; repeat (destruct H as [<-|H]; [apply whole_grid; reflexivity|]); destruct H.

(** two triangles a little apart *)
Definition near_a : list vec2 := [vi 0 0; vi 134217728 0; vi 134217728 134217729].
Definition near_b : list vec2 := [vi 134217727 134217728; vi 20000000 134217728; vi 0 30000000].
(** two triangles that overlap a little *)
Definition over_a : list vec2 := [vi 45443413 255963940; vi 178071868 365714078; vi 278071868 235963940].
Definition over_b : list vec2 := [vi 142866162 336581332; vi 112866162 366581332; vi 82866162 356581332].

Lemma near_facts : convex_polygon near_a /\ convex_polygon near_b.
Proof. split; [left|left]; apply ccw_b_ok; vm_compute; reflexivity. Qed.
Lemma over_facts : convex_polygon over_a /\ convex_polygon over_b.
Proof. split; [right|left]; apply ccw_b_ok; vm_compute; reflexivity. Qed.
Lemma near_touch : exists fl A B, in_doubles fl /\ convex_polygon A /\ convex_polygon B /\ (forall p, In p (A ++ B) -> on_grid 0 28 p) /\ ~ hulls_meet A B /\ fpolygon_relationship fl A B = Ok TOUCH.
Proof.
  exists never_fused, near_a, near_b. split; [exact doubles_plain|]. split; [apply near_facts|]. split; [apply near_facts|]. split; [on_whole_grid|].
  split; [apply distance_sound; vm_compute; reflexivity|]. vm_compute. reflexivity.
Qed.
Lemma over_apart : exists fl A B, in_doubles fl /\ convex_polygon A /\ convex_polygon B /\ (forall p, In p (A ++ B) -> on_grid 0 29 p) /\ hulls_meet A B /\
  fpolygon_relationship fl A B = Ok DISTANCE /\ fsat2d fl (fun _ _ => true) A B = Ok true.
Proof.
  exists never_fused, over_a, over_b. split; [exact doubles_plain|]. split; [apply over_facts|]. split; [apply over_facts|]. split; [on_whole_grid|].
  split; [|split; vm_compute; reflexivity].
  assert (moderate over_a /\ moderate over_b) as (MA & MB).
  { split; intros p H; cbn in H; repeat (destruct H as [<-|H]; [repeat split; vm_compute; discriminate|]); destruct H. }
  destruct (relationship_convex over_a over_b (proj1 over_facts) (proj2 over_facts) MA MB) as (_ & _ & H). apply H. vm_compute. reflexivity.
Qed.
Lemma squares_grid : (forall p, In p (sq0 ++ tri3) -> on_grid 0 25 p) /\ (forall p, In p (sq0 ++ sq2) -> on_grid 0 25 p).
Proof. split; on_whole_grid. Qed.
