(** The set of the normals of a polygon. *)
From Coq Require Import List ZArith Reals Bool Lra Lia.
From Verif Require Import Base BaseFacts LoopFacts ModelMemView ModelPlane ModelNewton ModelVecOps ModelUtil SpecPlane SpecVecOps SpecUtil ProofPlane ProofVecOps ProofUtil ProofNormals.
Import ListNotations.
Local Open Scope R_scope.

(** * the hash *)
Lemma trunc_neg x : rtrunc (- x) = (- rtrunc x)%Z.
Proof.
  unfold rtrunc. destruct (Rle_dec 0 (- x)) as [A|A]; destruct (Rle_dec 0 x) as [B|B].
  - assert (x = 0) as -> by lra. rewrite Ropp_0. assert (Int_part 0 = 0)%Z as ->; [|reflexivity].
    unfold Int_part. rewrite <- (tech_up 0 1); [reflexivity|cbn; lra..].
  - lia.
  - rewrite Ropp_involutive. lia.
  - lra.
Qed.
Lemma int_part_bound x : 0 <= x <= 15 -> (0 <= Int_part x <= 15)%Z.
Proof.
  intros H. destruct (base_Int_part x) as [A B]. split.
  - apply le_IZR. destruct (Z_lt_le_dec (Int_part x) 0) as [L|L]; [|apply IZR_le; exact L].
    exfalso. assert (Int_part x <= -1)%Z as L1 by lia. apply IZR_le in L1. cbn in L1. lra.
  - apply le_IZR. cbn. lra.
Qed.
Lemma quantize_ok x : -1 <= x <= 1 -> exists z, quantize15 x = Ok z /\ quantize15 (- x) = Ok (- z)%Z /\ (-15 <= z <= 15)%Z.
Proof.
  intros H. unfold quantize15. exists (rtrunc (x * 15)). replace (- x * 15) with (- (x * 15)) by ring. rewrite trunc_neg.
  assert (-15 <= rtrunc (x * 15) <= 15)%Z as B.
  { unfold rtrunc. destruct (Rle_dec 0 (x * 15)) as [L|L].
    - pose proof (int_part_bound (x * 15) ltac:(lra)). lia.
    - pose proof (int_part_bound (- (x * 15)) ltac:(lra)). lia. }
  unfold int_op. repeat (match goal with |- context [(?a <=? ?b)%Z] => destruct (Z.leb_spec a b); [|lia] | |- context [(?a <? ?b)%Z] => destruct (Z.ltb_spec a b); [|lia] end).
  cbn. repeat split; lia.
Qed.
Definition hash_of (x y : Z) : bool := negb (Z.max (Z.lxor x (2 * y)) (Z.lxor (- x) (2 * - y)) =? 0)%Z.
Lemma hash_of_neg x y : hash_of (- x) (- y) = hash_of x y.
Proof. unfold hash_of. rewrite !Z.opp_involutive, Z.max_comm. reflexivity. Qed.
Lemma unit_range a : a <> RV2 0 0 -> -1 <= r2x (unit_of a) <= 1 /\ -1 <= r2y (unit_of a) <= 1.
Proof.
  intros N. pose proof (unit_of_len a N) as L. pose proof (r2len_sq (unit_of a)) as Sq. rewrite L in Sq. unfold r2dot in Sq. split; nra.
Qed.
Lemma int_small z : (-100 <= z <= 100)%Z -> int_op z = Ok z.
Proof. intros H. unfold int_op. destruct (Z.leb_spec (- 2 ^ 31) z); [|lia]. destruct (Z.ltb_spec z (2 ^ 31)); [reflexivity|lia]. Qed.
Lemma hash_eq a : a <> RV2 0 0 -> exists x y, quantize15 (r2x (unit_of a)) = Ok x /\ quantize15 (r2y (unit_of a)) = Ok y /\ normal_hash a = Ok (hash_of x y).
Proof.
  intros N. destruct (unit_range a N) as [A B]. destruct (quantize_ok _ A) as (x & X1 & X2 & X3). destruct (quantize_ok _ B) as (y & Y1 & Y2 & Y3).
  exists x, y. split; [exact X1|split; [exact Y1|]]. unfold normal_hash. rewrite (unit2_ok a N). cbn [bind]. fold (unit_of a).
  rewrite X1. cbn [bind]. rewrite Y1. cbn [bind]. rewrite X2. cbn [bind]. rewrite Y2. cbn [bind]. rewrite (int_small (2 * y)) by lia. cbn [bind].
  rewrite (int_small (2 * - y)) by lia. reflexivity.
Qed.
Lemma parallel_unit a b : a <> RV2 0 0 -> b <> RV2 0 0 -> parallel2 a b ->
  unit_of b = unit_of a \/ unit_of b = RV2 (- r2x (unit_of a)) (- r2y (unit_of a)).
Proof.
  intros Na Nb (j & k & JK & E1 & E2).
  pose proof (r2len_pos a Na) as La. pose proof (r2len_pos b Nb) as Lb.
  assert (k <> 0) as K.
  { intros ->. rewrite !Rmult_0_l in *. destruct JK as [J|J]; [|lra]. apply Na. destruct a as [x y]. cbn in *.
    apply Rmult_integral in E1. apply Rmult_integral in E2. destruct E1; [contradiction|]. destruct E2; [contradiction|]. subst. reflexivity. }
  set (m := j / k). assert (r2x b = m * r2x a /\ r2y b = m * r2y a) as [Bx By].
  { unfold m. split; [apply Rmult_eq_reg_l with k; [|exact K]; rewrite <- E1; field; exact K|apply Rmult_eq_reg_l with k; [|exact K]; rewrite <- E2; field; exact K]. }
  assert (r2len b = Rabs m * r2len a) as LB.
  { unfold r2len at 1, r2dot. rewrite Bx, By. replace (m * r2x a * (m * r2x a) + m * r2y a * (m * r2y a)) with (m² * r2dot a a) by (unfold r2dot, Rsqr; ring).
    rewrite sqrt_mult; [rewrite sqrt_Rsqr_abs; reflexivity|apply Rle_0_sqr|unfold r2dot; nra]. }
  assert (m <> 0) as M by (intros Z; rewrite Z, Rabs_R0 in LB; lra).
  unfold unit_of at 1 3. rewrite LB, Bx, By. destruct (Rcase_abs m) as [L|G].
  - right. rewrite (Rabs_left m L). unfold unit_of. cbn. apply v2r_eq; field; lra.
  - left. rewrite (Rabs_right m G). unfold unit_of. apply v2r_eq; field; lra.
Qed.
Lemma hash_parallel a b : a <> RV2 0 0 -> b <> RV2 0 0 -> parallel2 a b -> normal_hash a = normal_hash b.
Proof.
  intros Na Nb H. destruct (hash_eq a Na) as (x & y & X & Y & ->). destruct (hash_eq b Nb) as (x' & y' & X' & Y' & ->).
  destruct (parallel_unit a b Na Nb H) as [E|E]; rewrite E in X', Y'.
  - rewrite X in X'. rewrite Y in Y'. injection X' as <-. injection Y' as <-. reflexivity.
  - cbn [r2x r2y] in X', Y'. destruct (unit_range a Na) as [A B].
    destruct (quantize_ok _ A) as (x1 & X1 & X2 & _). destruct (quantize_ok _ B) as (y1 & Y1 & Y2 & _).
    rewrite X in X1. injection X1 as <-. rewrite Y in Y1. injection Y1 as <-. rewrite X2 in X'. rewrite Y2 in Y'.
    injection X' as <-. injection Y' as <-. rewrite hash_of_neg. reflexivity.
Qed.
Lemma hash_ok a : a <> RV2 0 0 -> exists h, normal_hash a = Ok h.
Proof. intros N. destruct (hash_eq a N) as (x & y & _ & _ & ->). eauto. Qed.
Lemma hash_zero : normal_hash (RV2 0 0) = Throw EInvalidArgument.
Proof. unfold normal_hash. rewrite unit2_zero. reflexivity. Qed.

(** * the set *)
Lemma find_spec n h : n <> RV2 0 0 -> normal_hash n = Ok h -> forall s, ~ In (RV2 0 0) s ->
  exists b, find_normal s h n = Ok b /\ (b = true <-> exists x, In x s /\ parallel2 x n).
Proof.
  intros N H. induction s as [|x s IH]; intros Z.
  - exists false. split; [reflexivity|]. split; [discriminate|intros (y & [] & _)].
  - assert (x <> RV2 0 0) as Nx by (intros ->; apply Z; left; reflexivity).
    destruct (IH ltac:(intros I; apply Z; right; exact I)) as (b & F & S1). destruct (hash_ok x Nx) as (hx & Hx).
    cbn [find_normal]. rewrite Hx. cbn [bind]. destruct (Bool.eqb hx h) eqn:E.
    + destruct (collinear2_spec x n Nx N) as (c & C & Ci). rewrite C. cbn [bind]. destruct c.
      * exists true. split; [reflexivity|]. split; [intros _|reflexivity]. exists x. split; [left; reflexivity|apply Ci; reflexivity].
      * exists b. split; [exact F|]. rewrite S1. split; intros (y & I & P); exists y; [split; [right; exact I|exact P]|].
        destruct I as [<-|I]; [apply Ci in P; discriminate|]. split; assumption.
    + exists b. split; [exact F|]. rewrite S1. split; intros (y & I & P); exists y; [split; [right; exact I|exact P]|].
      destruct I as [<-|I]; [|split; assumption]. exfalso. rewrite (hash_parallel x n Nx N P), H in Hx. injection Hx as <-.
      rewrite eqb_reflx in E. discriminate E.
Qed.
Lemma parallel2_sym a b : parallel2 a b -> parallel2 b a.
Proof. intros (j & k & H & A & B). exists k, j. split; [tauto|]. split; symmetry; assumption. Qed.
Lemma insert_spec s n : distinct_lines s -> n <> RV2 0 0 -> exists s', insert_normal s n = Ok s' /\ distinct_lines s' /\ incl s s' /\
  (forall x, In x s' -> In x s \/ x = n) /\ exists x, In x s' /\ parallel2 x n.
Proof.
  intros [Z D] N. destruct (hash_ok n N) as (h & H). destruct (find_spec n h N H s Z) as (b & F & Sb).
  unfold insert_normal. rewrite H. cbn [bind]. rewrite F. cbn [bind]. eexists. split; [reflexivity|]. destruct b.
  - destruct (proj1 Sb eq_refl) as (x & I & P). split; [split; assumption|]. split; [intros y; auto|]. split; [auto|]. exists x. auto.
  - split; [split|].
    + intros I. apply in_app_iff in I as [I|[I|[]]]; [exact (Z I)|exact (N I)].
    + assert (forall x, In x s -> ~ parallel2 x n) as NP. { intros x I P. assert (false = true) by (apply Sb; eauto). discriminate. }
      clear -D NP. induction D as [|a l F D IH]; cbn.
      * repeat constructor.
      * constructor; [|apply IH; intros; apply NP; right; assumption]. apply Forall_app. split; [exact F|]. constructor; [|constructor]. apply NP. left; reflexivity.
    + split; [intros x I; apply in_app_iff; left; exact I|]. split.
      * intros x I. apply in_app_iff in I as [I|[I|[]]]; auto.
      * exists n. split; [apply in_app_iff; right; left; reflexivity|]. exists 1, 1. split; [left; lra|]. split; reflexivity.
Qed.
Lemma r2eq_iff a b : r2eqb a b = true <-> close2 a b.
Proof. unfold r2eqb, close2. rewrite andb_true_iff, !near_iff. reflexivity. Qed.
Lemma contain_iff s n : normals_contain s n = true <-> exists x, In x s /\ close2 x n.
Proof. unfold normals_contain. rewrite existsb_exists. split; intros (x & I & H); exists x; (split; [exact I|apply r2eq_iff; exact H]). Qed.
Lemma parallel_perp x n p q : n <> RV2 0 0 -> parallel2 x n -> perpendicular n p q -> x <> RV2 0 0 -> perpendicular x p q.
Proof.
  intros N (j & k & JK & E1 & E2) H X. unfold perpendicular in *.
  assert (j <> 0) as J.
  { intros ->. rewrite !Rmult_0_l in *. destruct JK as [J|K]; [lra|]. apply N. destruct n as [a b]. cbn in *. symmetry in E1, E2.
    apply Rmult_integral in E1. apply Rmult_integral in E2. destruct E1; [contradiction|]. destruct E2; [contradiction|]. subst. reflexivity. }
  apply Rmult_eq_reg_l with j; [|exact J]. rewrite Rmult_0_r.
  transitivity (j * r2x x * (r2x q - r2x p) + j * r2y x * (r2y q - r2y p)); [ring|]. rewrite E1, E2.
  transitivity (k * (r2x n * (r2x q - r2x p) + r2y n * (r2y q - r2y p))); [ring|]. rewrite H. ring.
Qed.

(** * polygonUniqueNormals *)
Lemma unique_ok normalize P s0 : no_zero_edge P -> distinct_lines s0 -> exists s, unique_normals normalize P s0 = Ok s /\ distinct_lines s /\ incl s0 s /\
  (forall n, In n s -> In n s0 \/ edge_gives normalize P n) /\ forall i p q, edge P i p q -> edge_covered s p q.
Proof.
  intros NZ D0. unfold unique_normals.
  destruct (for_up_inv (fun i s => distinct_lines s /\ incl s0 s /\ (forall n, In n s -> In n s0 \/ edge_gives normalize P n) /\
      forall k p q, (k < i)%nat -> edge P k p q -> edge_covered s p q)
    (fun i s => let j := Nat.modulo (i + 1) (length P) in q <- get P j ;; p <- get P i ;; let n := edge_normal p q in
      if normals_contain s n then Ok s else n <- (if normalize then r2unit n else Ok n) ;; insert_normal s n) (length P) 0 s0) as (s & E & (D & I & O & C)).
  - split; [exact D0|]. split; [intros x; auto|]. split; [auto|]. intros; lia.
  - intros i s _ L (D & I & O & C). destruct (edge_exists P i ltac:(lia)) as (p & q & E). destruct (edge_get P i p q E) as (G1 & G2 & _).
    cbv zeta. rewrite G1. cbn [bind]. rewrite G2. cbn [bind].
    assert (edge_normal p q <> RV2 0 0) as N by (intros Z; exact (NZ i p q E (edge_normal_zero p q Z))).
    destruct (normals_contain s (edge_normal p q)) eqn:K.
    + exists s. split; [reflexivity|]. split; [exact D|]. split; [exact I|]. split; [exact O|].
      intros k p' q' Lk E'. destruct (Nat.eq_dec k i) as [->|NE]; [|apply (C k); [lia|exact E']].
      destruct (edge_fun P i p q p' q' E E') as [-> ->]. apply contain_iff in K as (x & Ix & Cx). exists x. split; [exact Ix|right; exact Cx].
    + set (n := if normalize then unit_of (edge_normal p q) else edge_normal p q).
      assert ((if normalize then r2unit (edge_normal p q) else Ok (edge_normal p q)) = Ok n) as ->.
      { unfold n. destruct normalize; [apply unit2_ok; exact N|reflexivity]. }
      cbn [bind]. assert (n <> RV2 0 0) as Nn by (unfold n; destruct normalize; [apply unit_of_nz|]; exact N).
      assert (perpendicular n p q) as Pn by (unfold n; destruct normalize; [apply unit_of_perp; [exact N|]|]; apply edge_normal_perp).
      destruct (insert_spec s n D Nn) as (s' & -> & D' & I' & O' & (x & Ix & Px)). exists s'. split; [reflexivity|].
      split; [exact D'|]. split; [intros y Hy; apply I', I, Hy|]. split.
      * intros y Hy. destruct (O' y Hy) as [Hs | ->]; [apply O; exact Hs|]. right. exists i, p, q. split; [exact E|]. split; [exact Pn|]. split; [exact Nn|].
        unfold n. intros ->. apply unit_of_len, N.
      * intros k p' q' Lk E'. destruct (Nat.eq_dec k i) as [->|NE].
        -- destruct (edge_fun P i p q p' q' E E') as [-> ->]. exists x. split; [exact Ix|left].
           apply (parallel_perp x n p' q' Nn Px Pn). intros ->. exact (proj1 D' Ix).
        -- destruct (C k p' q' ltac:(lia) E') as (y & Iy & Hy). exists y. split; [apply I'; exact Iy|exact Hy].
  - exists s. split; [exact E|]. split; [exact D|]. split; [exact I|]. split; [exact O|].
    intros i p q Ei. destruct (edge_get P i p q Ei) as (_ & _ & L). apply (C i); [lia|exact Ei].
Qed.

(** a tiny triangle has one normal *)
Definition tiny : R := 1 / IZR (2 ^ 60).
Definition tiny_tri : list v2r := [RV2 0 0; RV2 tiny 0; RV2 0 tiny].
Lemma tiny_pos : 0 < tiny < R_EPS / 4. Proof. unfold tiny, R_EPS. split; [|]; cbn; lra. Qed.
Lemma tiny_edges i p q : edge tiny_tri i p q -> (p = RV2 0 0 /\ q = RV2 tiny 0) \/ (p = RV2 tiny 0 /\ q = RV2 0 tiny) \/ (p = RV2 0 tiny /\ q = RV2 0 0).
Proof.
  intros [A B]. destruct i as [|[|[|i]]]; cbn in A, B.
  - injection A as <-. injection B as <-. auto.
  - injection A as <-. injection B as <-. auto.
  - injection A as <-. injection B as <-. auto.
  - destruct i; discriminate A.
Qed.
Lemma tiny_good : no_zero_edge tiny_tri.
Proof. pose proof tiny_pos. intros i p q E H0. destruct (tiny_edges i p q E) as [[-> ->]|[[-> ->]|[-> ->]]]; injection H0; lra. Qed.
Lemma tiny_unique : unique_normals false tiny_tri [] = Ok [RV2 0 (- tiny)].
Proof.
  pose proof tiny_pos as T.
  assert (edge_normal (RV2 0 0) (RV2 tiny 0) = RV2 0 (- tiny)) as E1 by (apply v2r_eq; cbn; lra).
  assert (RV2 0 (- tiny) <> RV2 0 0) as N1 by (intros E; injection E; lra).
  assert (forall p q, close2 (RV2 0 (- tiny)) (edge_normal p q) -> normals_contain [RV2 0 (- tiny)] (edge_normal p q) = true) as K.
  { intros p q C. apply contain_iff. exists (RV2 0 (- tiny)). split; [left; reflexivity|exact C]. }
  unfold unique_normals, tiny_tri. cbn [length for_up]. cbv zeta.
  cbn [get nth_error Nat.add Nat.modulo Nat.divmod snd fst Nat.sub of_option bind app set_nth normals_contain existsb].
  rewrite E1. destruct (hash_ok _ N1) as (h & H). unfold insert_normal at 1. rewrite H. cbn [bind find_normal app].
  rewrite K; [cbn [bind]; rewrite K; [reflexivity|]|]; unfold close2, edge_normal; cbn [r2x r2y]; split; apply Rabs_def1; lra.
Qed.
Lemma tiny_missing : unique_normals false tiny_tri [] = Ok [RV2 0 (- tiny)] /\ no_zero_edge tiny_tri /\
  edge tiny_tri 1 (RV2 tiny 0) (RV2 0 tiny) /\ ~ perpendicular (RV2 0 (- tiny)) (RV2 tiny 0) (RV2 0 tiny).
Proof.
  split; [exact tiny_unique|]. split; [exact tiny_good|]. split; [split; reflexivity|].
  pose proof tiny_pos. unfold perpendicular. cbn. intros E. nra.
Qed.
(** a repeated vertex *)
Lemma unique_repeat normalize p q : unique_normals normalize [p; p; q] [] = Throw EInvalidArgument.
Proof.
  unfold unique_normals. cbn [length for_up]. cbv zeta.
  cbn [get nth_error Nat.add Nat.modulo Nat.divmod snd fst Nat.sub of_option bind app set_nth normals_contain existsb].
  rewrite edge_normal_same. destruct normalize; [rewrite unit2_zero; reflexivity|]. unfold insert_normal. cbn [bind]. rewrite hash_zero. reflexivity.
Qed.
