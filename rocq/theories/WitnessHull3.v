(** Cases for the statements about convex hulls and Gauss maps. *)
From Coq Require Import List ZArith QArith Qcanon Bool Lia.
From Verif Require Import Base BaseFacts ModelVec ModelPolygon ModelNurbs ModelSurface ModelMonomial ModelCsx ModelSsx ModelHull3.
From Verif Require Import SpecNurbs SpecSurface SpecPolygon SpecGjk SpecSsx SpecHull3 ProofBspline ProofHull3 WitnessPolygon WitnessSsx.
Import ListNotations.
Local Open Scope Qc_scope.

Definition everything (pts hull : list vec3) : res (list vec3) := Ok pts.
Lemma in_hull3_self l p : In p l -> in_hull3 l p.
Proof.
  intros Hp. apply (In_nth _ _ (V3 0 0 0)) in Hp as (i & Hi & E).
  exists (fun j => if Nat.eqb j i then 1 else 0). split; [intros j; destruct (Nat.eqb j i); discriminate|].
  assert (forall f n, qsum (fun j => (if Nat.eqb j i then 1 else 0) * f j) n = if Nat.ltb i n then f i else 0) as Q.
  { induction n as [|n IH]; [destruct (Nat.ltb_spec i 0); [lia|reflexivity]|]. cbn [qsum]. rewrite IH. destruct (Nat.eqb_spec n i) as [->|N].
    - destruct (Nat.ltb_spec i i); [lia|]. destruct (Nat.ltb_spec i (S i)); [|lia]. ring.
    - destruct (Nat.ltb_spec i n), (Nat.ltb_spec i (S n)); try lia; ring. }
  split.
  - transitivity (qsum (fun j => (if Nat.eqb j i then 1 else 0) * (fun _ => 1) j) (length l)); [apply qsum_ext; intros; ring|].
    rewrite Q. destruct (Nat.ltb_spec i (length l)); [reflexivity|lia].
  - pose proof (Q (fun j => vx (pt3 l j))) as Qx. pose proof (Q (fun j => vy (pt3 l j))) as Qy. pose proof (Q (fun j => vz (pt3 l j))) as Qz. cbn beta in Qx, Qy, Qz.
    rewrite Qx, Qy, Qz. destruct (Nat.ltb_spec i (length l)); [|lia]. unfold pt3. rewrite E. repeat split.
Qed.
Lemma everything_finder : hull_finder everything.
Proof. intros pts. exists pts. split; [reflexivity|]. split; [apply incl_refl|]. intros p. apply in_hull3_self. Qed.
Definition rise_gm : res gmap := gm_build rise.
Lemma rise_parts : match gm_build rise with Ok g => match gm_subdivide g with Ok _ => true | _ => false end | _ => false end = true.
Proof. vm_compute. reflexivity. Qed.
Lemma rise_descends : exists g0 parts, gm_build rise = Ok g0 /\ gm_subdivide g0 = Ok parts.
Proof.
  pose proof rise_parts as H. destruct (gm_build rise) as [g| |]; try discriminate. destruct (gm_subdivide g) as [p| |] eqn:E; try discriminate. exists g, p. split; [reflexivity|exact E].
Qed.
