(** Counterexamples and concrete cases for the closest-point functions and GJK. *)
From Coq Require Import List ZArith QArith Qcanon Lia Bool Lqa.
From Verif Require Import Base BaseFacts ModelVec ModelAabb ModelNurbs ModelGjk SpecNurbs SpecGjk ProofMinimize ProofSat ProofClosest ProofGjk.
Import ListNotations.
Open Scope Qc_scope.

Definition v3i (x y z : Z) : vec3 := V3 (Qc_of_Z x) (Qc_of_Z y) (Qc_of_Z z).
Definition v3eqb (a b : vec3) : bool := (vx a =? vx b) && (vy a =? vy b) && (vz a =? vz b).
Lemma v3eqb_ok a b : v3eqb a b = true -> a = b.
Proof. unfold v3eqb. rewrite !andb_true_iff. intros ((A & B) & C). qcb. apply v3_eq; assumption. Qed.
Definition okv (r : res vec3) (b : vec3) : bool := match r with Ok a => v3eqb a b | _ => false end.
Lemma okv_ok r b : okv r b = true -> r = Ok b.
Proof. destruct r; try discriminate. cbn. intros H. apply v3eqb_ok in H. congruence. Qed.
Fixpoint v3leqb (l m : list vec3) : bool :=
  match l, m with [], [] => true | x :: l', y :: m' => v3eqb x y && v3leqb l' m' | _, _ => false end.
Lemma v3leqb_ok l : forall m, v3leqb l m = true -> l = m.
Proof. induction l as [|x l IH]; intros [|y m]; cbn; try discriminate; [reflexivity|]. rewrite andb_true_iff. intros (A & B). apply v3eqb_ok in A. rewrite A. f_equal. apply IH, B. Qed.
Lemma v3i_neq a b : v3eqb a b = false -> a <> b.
Proof. intros H E. subst b. unfold v3eqb in H. destruct (Qceqb_spec (vx a) (vx a)), (Qceqb_spec (vy a) (vy a)), (Qceqb_spec (vz a) (vz a)); try congruence; discriminate. Qed.

Ltac zpush X := qc_push; rewrite ?this_of_Z in X; unfold inject_Z in X; lra.

(** ** rays, segments, triangles *)
Lemma ray_behind : exists q s d p, d <> V3 0 0 0 /\ closest_on_ray q s d = Ok p /\ ~ on_ray s d p.
Proof.
  exists (v3i (-1) 1 0), (v3i 0 0 0), (v3i 1 0 0), (v3i (-1) 0 0). split; [apply v3i_neq; vm_compute; reflexivity|]. split; [apply okv_ok; vm_compute; reflexivity|].
  intros (t & T & E). pose proof (f_equal vx E) as X. unfold v3add, v3scale, v3i in X. cbn [vx vy vz] in X. clear E. zpush X.
Qed.
Lemma segm_from_outside : exists q a b p, a <> b /\ closest_on_segm_from q a b = Ok p /\ ~ on_segment a b p.
Proof.
  exists (v3i 1 1 0), (v3i 0 0 0), (V3 (qc 1 2) 0 0), (v3i 1 0 0). split; [apply v3i_neq; vm_compute; reflexivity|]. split; [apply okv_ok; vm_compute; reflexivity|].
  intros (t & T0 & T1 & E). pose proof (f_equal vx E) as X. unfold v3add, v3scale, v3i in X. cbn [vx vy vz] in X. clear E. zpush X.
Qed.
Lemma segm_from_far : exists q a b p x, a <> b /\ closest_on_segm_from q a b = Ok p /\ on_segment a b x /\ v3distSq x q < v3distSq p q.
Proof.
  exists (v3i 5 0 0), (v3i 0 0 0), (v3i 10 0 0), (v3i 10 0 0), (v3i 5 0 0). split; [apply v3i_neq; vm_compute; reflexivity|]. split; [apply okv_ok; vm_compute; reflexivity|].
  split; [|vm_compute; reflexivity]. exists (qc 1 2). split; [vm_compute; discriminate|]. split; [vm_compute; discriminate|]. apply v3eqb_ok. vm_compute. reflexivity.
Qed.
Lemma triangle_from_outside : exists q a b c p, a <> b /\ closest_on_triangle_from q a b c = Ok p /\ ~ in_triangle a b c p.
Proof.
  exists (v3i 10 0 0), (v3i 10 0 0), (v3i 11 0 0), (v3i 10 1 0), (v3i 0 0 0). split; [apply v3i_neq; vm_compute; reflexivity|]. split; [apply okv_ok; vm_compute; reflexivity|].
  intros (u & v & w & U & V & W & S & E). pose proof (f_equal vx E) as X. unfold v3add, v3scale, v3i in X. cbn [vx vy vz] in X. clear E. zpush X.
Qed.

(** ** the closest point of a tetrahedron *)
Definition tetra : list vec3 := [v3i 0 0 10; v3i 1 0 10; v3i 0 1 10; v3i 0 0 1].
Lemma tetra_far : exists p q, NoDup tetra /\ closest_on_simplex tetra = Ok p /\ in_hull3 tetra q /\ v3distSq q origin < v3distSq p origin.
Proof.
  exists (v3i 0 0 10), (v3i 0 0 1). split; [|split; [apply okv_ok; vm_compute; reflexivity|split; [|vm_compute; reflexivity]]].
  - repeat constructor; cbn; intros H; repeat destruct H as [H|H]; try contradiction; revert H; apply v3i_neq; vm_compute; reflexivity.
  - exists (fun i => if Nat.eqb i 3 then 1 else 0). split; [intros i; destruct (Nat.eqb i 3); vm_compute; discriminate|]. split; [|repeat split]; apply Qceqb_iff; vm_compute; reflexivity.
Qed.

(** ** a pair of disjoint hulls on which the simplex cycles *)
Definition cA : list vec3 := [v3i 1 1 (-1); v3i 0 0 0].
Definition cB : list vec3 := [v3i 1 0 1; v3i 0 (-1) (-1); v3i (-1) 0 0].
Definition eps : Qc := qc 1 4503599627370496.
Definition step_b (s : list vec3) (d : vec3) (s' : list vec3) (d' : vec3) : bool :=
  match support cA cB d with
  | Ok p => negb (v3dot p d <? 0) &&
      match handle_simplex (s ++ [p]) d eps with Ok (h, s2, d2) => negb h && v3leqb s2 s' && v3eqb d2 d' | _ => false end
  | _ => false end.
Lemma step_b_ok cp0 n s d s' d' : step_b s d s' d' = true -> gjk_loop cA cB cp0 eps (S n) s d = gjk_loop cA cB cp0 eps n s' d'.
Proof.
  unfold step_b. cbn [gjk_loop]. destruct (support cA cB d) as [p| |]; try discriminate. cbn [bind]. rewrite andb_true_iff, negb_true_iff. intros (-> & H).
  destruct (handle_simplex _ _ _) as [((h & s2) & d2)| |]; try discriminate. rewrite !andb_true_iff, negb_true_iff in H. destruct H as ((-> & H1) & H2). apply v3leqb_ok in H1. apply v3eqb_ok in H2. subst. reflexivity.
Qed.
Definition st : list (list vec3 * vec3) :=
  [([v3i 0 1 1; v3i 0 1 (-2); v3i (-1) 0 (-1)], v3i 3 (-3) 0);
   ([v3i 0 1 1; v3i (-1) 0 (-1); v3i 2 1 (-1)], v3i 2 (-6) 2);
   ([v3i (-1) 0 (-1); v3i 2 1 (-1); v3i 1 0 0], v3i (-1) 3 2);
   ([v3i (-1) 0 (-1); v3i 1 0 0; v3i 1 2 0], v3i (-2) 0 4);
   ([v3i 1 0 0; v3i 1 2 0; v3i 0 1 1], v3i (-2) 0 (-2));
   ([v3i 1 0 0; v3i 0 1 1; v3i 0 1 (-2)], v3i (-3) (-3) 0)].
Lemma cycle cp0 n : forall e, In e st -> exists r, gjk_loop cA cB cp0 eps n (fst e) (snd e) = Ok r /\ collides r = true.
Proof.
  induction n as [|n IH]; intros e He; [eexists; split; reflexivity|].
  assert (forall e e', In e' st -> step_b (fst e) (snd e) (fst e') (snd e') = true -> exists r, gjk_loop cA cB cp0 eps (S n) (fst e) (snd e) = Ok r /\ collides r = true) as G.
  { intros f f' Hf Hs. rewrite (step_b_ok cp0 n _ _ _ _ Hs). apply IH, Hf. }
  destruct He as [<-|[<-|[<-|[<-|[<-|[<-|[]]]]]]].
  - apply (G _ (nth 1 st ([], V3 0 0 0))); [right; left; reflexivity|vm_compute; reflexivity].
  - apply (G _ (nth 2 st ([], V3 0 0 0))); [do 2 right; left; reflexivity|vm_compute; reflexivity].
  - apply (G _ (nth 3 st ([], V3 0 0 0))); [do 3 right; left; reflexivity|vm_compute; reflexivity].
  - apply (G _ (nth 4 st ([], V3 0 0 0))); [do 4 right; left; reflexivity|vm_compute; reflexivity].
  - apply (G _ (nth 5 st ([], V3 0 0 0))); [do 5 right; left; reflexivity|vm_compute; reflexivity].
  - apply (G _ (nth 0 st ([], V3 0 0 0))); [left; reflexivity|vm_compute; reflexivity].
Qed.
Lemma cycle_start cp0 n : gjk cA cB [] cp0 eps n = gjk_loop cA cB cp0 eps n [v3i 0 1 1] (v3i 0 (-1) (-1)).
Proof.
  unfold gjk. cbn [get nth_error cA cB of_option bind]. cbv zeta. fold cA. fold cB. set (d := if _ : bool then _ else _). assert (support cA cB d = Ok (v3i 0 1 1)) as -> by (apply okv_ok; vm_compute; reflexivity).
  cbn [bind app]. f_equal.
Qed.
Lemma gjk_cycles : exists A B, ~ hulls_meet3 A B /\ forall cp0 n, exists r, gjk A B [] cp0 (qc 1 4503599627370496) n = Ok r /\ collides r = true.
Proof.
  exists cA, cB. split.
  - apply (apart3 cA cB (v3i (-1) (-3) 2)). intros a b [<-|[<-|[]]] [<-|[<-|[<-|[]]]]; vm_compute; reflexivity.
  - intros cp0 n. change (qc 1 4503599627370496) with eps. rewrite cycle_start. destruct n as [|n]; [eexists; split; reflexivity|].
    rewrite (step_b_ok cp0 n _ _ [v3i 0 1 1; v3i 0 1 (-2)] (v3i 0 (-9) 0)) by (vm_compute; reflexivity). destruct n as [|n]; [eexists; split; reflexivity|].
    rewrite (step_b_ok cp0 n _ _ (fst (nth 0 st ([], V3 0 0 0))) (snd (nth 0 st ([], V3 0 0 0)))) by (vm_compute; reflexivity). apply cycle. left. reflexivity.
Qed.

(** ** the closest point after a negative answer *)
Lemma gjk_far : exists A B, forall cp0, exists r p q, gjk A B [] cp0 (qc 1 4503599627370496) 25 = Ok r /\ collides r = false /\ closest r = Ok p /\
  (exists a b, in_hull3 A a /\ in_hull3 B b /\ q = v3sub a b) /\ v3distSq q origin < v3distSq p origin.
Proof.
  exists [v3i 10 0 0; v3i 1 10 0], [v3i 0 0 0]. intros cp0. eexists. exists (v3i 1 10 0), (v3i 10 0 0). split; [reflexivity|]. split; [reflexivity|]. split; [apply okv_ok; vm_compute; reflexivity|]. split; [|vm_compute; reflexivity].
  exists (v3i 10 0 0), (v3i 0 0 0). split; [|split; [apply hull3_one; reflexivity|apply v3eqb_ok; vm_compute; reflexivity]].
  exists (fun i => match i with O => 1 | _ => 0 end). split; [intros [|i]; vm_compute; discriminate|]. split; [|repeat split]; apply Qceqb_iff; vm_compute; reflexivity.
Qed.

(** ** a simplex that was not emptied *)
Lemma gjk_reused : exists A B s, gjk A B [] (V3 0 0 0) eps 25 <> gjk A B s (V3 0 0 0) eps 25 /\ gjk A B s (V3 0 0 0) eps 25 = Throw EInvalidArgument.
Proof.
  exists [v3i 1 0 0; v3i (-1) 0 0; v3i 0 1 0; v3i 0 (-1) 0; v3i 0 0 1; v3i 0 0 (-1)], [V3 (qc 1 4) (qc 1 4) (qc 1 8)], tetra.
  assert (forall r, match r with Ok _ | UB => false | Throw EInvalidArgument => true | _ => false end = true -> r = Throw (A := gjk_result) EInvalidArgument) as T by (intros [r|[]|]; try discriminate; reflexivity).
  split; [|apply T; vm_compute; reflexivity]. rewrite (T (gjk _ _ tetra _ _ _)) by (vm_compute; reflexivity). vm_compute. discriminate.
Qed.

(** ** cases *)
Definition cube (x y z : Z) : list vec3 := flat_map (fun a => flat_map (fun b => map (fun c => v3i (x + a) (y + b) (z + c)) [0; 2]%Z) [0; 2]%Z) [0; 2]%Z.
Definition bools (r : res gjk_result) : option bool := match r with Ok r => Some (collides r) | _ => None end.
Lemma cubes_apart : bools (gjk (cube 0 0 0) (cube 5 1 (-1)) [] (V3 0 0 0) eps 25) = Some false. Proof. vm_compute. reflexivity. Qed.
Lemma cubes_moderate : forall x y z, (Z.abs x <= 100 -> Z.abs y <= 100 -> Z.abs z <= 100 -> moderate3 gjk_bound (cube x y z))%Z.
Proof.
  intros x y z X Y Z0 p Hp.
  assert (forall k, (Z.abs k <= 200)%Z -> - gjk_bound <= Qc_of_Z k /\ Qc_of_Z k <= gjk_bound) as G.
  { intros k K. unfold gjk_bound. rewrite !Qc_le_this, this_opp, !this_of_Z. change (2 ^ 200)%Z with (200 + (2 ^ 200 - 200))%Z. split.
    - rewrite <- inject_Z_opp, <- Zle_Qle. assert (0 <= 2 ^ 200 - 200)%Z by (vm_compute; discriminate). lia.
    - rewrite <- Zle_Qle. assert (0 <= 2 ^ 200 - 200)%Z by (vm_compute; discriminate). lia. }
  cbn [cube flat_map map app] in Hp.
  repeat destruct Hp as [<-|Hp]; try contradiction; unfold v3i; cbn [vx vy vz]; repeat apply conj; apply G; lia.
Qed.
Definition oct : list vec3 := [v3i 3 0 0; v3i (-3) 0 0; v3i 0 3 0; v3i 0 (-3) 0; v3i 0 0 3; v3i 0 0 (-3)].
Lemma oct_case : exists r x0 x1 x2 x3, gjk oct (cube (-1) 0 1) [] (V3 0 0 0) eps 25 = Ok r /\ collides r = true /\ final_simplex r = [x0; x1; x2; x3] /\ volume6 x0 x1 x2 x3 <> 0.
Proof.
  assert (match gjk oct (cube (-1) 0 1) [] (V3 0 0 0) eps 25 with Ok r => collides r && match final_simplex r with [a; b; c; d] => negb (volume6 a b c d =? 0) | _ => false end | _ => false end = true) as H by (vm_compute; reflexivity).
  destruct (gjk oct _ _ _ _ _) as [r| |]; try discriminate. apply andb_true_iff in H. destruct H as (H1 & H2).
  destruct (final_simplex r) as [|a [|b [|c [|d [|? ?]]]]] eqn:E; try discriminate. exists r, a, b, c, d. apply negb_true_iff in H2. qcb. auto.
Qed.
Lemma apart_case : exists r, gjk (cube 0 0 0) (cube 5 1 (-1)) [] (V3 0 0 0) eps 25 = Ok r /\ collides r = false /\ NoDup (final_simplex r).
Proof.
  assert (match gjk (cube 0 0 0) (cube 5 1 (-1)) [] (V3 0 0 0) eps 25 with Ok r => negb (collides r) && match final_simplex r with [a] => true | [a; b] => negb (v3eqb a b) | [a; b; c] => negb (v3eqb a b) && negb (v3eqb a c) && negb (v3eqb b c) | _ => false end | _ => false end = true) as H by (vm_compute; reflexivity).
  destruct (gjk _ _ _ _ _ _) as [r| |]; try discriminate. apply andb_true_iff in H. destruct H as (H1 & H2). apply negb_true_iff in H1. exists r. split; [reflexivity|]. split; [exact H1|].
  destruct (final_simplex r) as [|a [|b [|c [|? ?]]]]; try discriminate.
  - repeat constructor. intros [].
  - apply negb_true_iff, v3i_neq in H2. constructor; [intros [E|[]]; congruence|]. repeat constructor. intros [].
  - rewrite !andb_true_iff, !negb_true_iff in H2. destruct H2 as ((A & B) & C). apply v3i_neq in A, B, C. constructor; [intros [E|[E|[]]]; congruence|]. constructor; [intros [E|[]]; congruence|]. repeat constructor. intros [].
Qed.
Lemma tri_case : v3i 1 2 3 <> v3i 4 0 1 /\ closest_on_triangle (v3i 1 2 3) (v3i 4 0 1) (v3i (-1) (-1) 2) <> UB.
Proof. split; [apply v3i_neq; vm_compute; reflexivity|vm_compute; discriminate]. Qed.
