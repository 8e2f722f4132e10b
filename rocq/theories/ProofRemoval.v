(** What taking out one knot returns. *)
From Coq Require Import List ZArith QArith Qcanon Bool Lia Lqa Field.
From Verif Require Import Base BaseFacts LoopFacts ModelVec ModelNurbs ModelSurface ModelRefine SpecNurbs SpecCurve SpecRefine
  ProofBspline ProofInsertion ProofNurbs ProofInsertCurve ProofInsertKnot ProofMinimize ProofRefine ProofRefineMisc.
Import ListNotations.
Open Scope Qc_scope.

Definition o4 : vec4 := V4 0 0 0 0.
Definition vq (a : vec4) (k : Qc) : vec4 := V4 (wx a / k) (wy a / k) (wz a / k) (ww a / k).
Lemma v4quot_ok a k : k <> 0 -> v4quot a k = Ok (vq a k).
Proof. intros H. unfold v4quot. rewrite !qdiv_ok by exact H. reflexivity. Qed.
Lemma near4_spec a b tol : near4 a b tol = true <-> within4 a b tol.
Proof. unfold near4, within4. cbv zeta. rewrite andb_true_iff. rewrite !Qcleb_iff. reflexivity. Qed.
Lemma near4_refl a tol : 0 <= tol -> near4 a a tol = true.
Proof.
  intros H. apply near4_spec. split; [exact H|]. replace ((wx a - wx a) * (wx a - wx a) + (wy a - wy a) * (wy a - wy a) + (wz a - wz a) * (wz a - wz a) + (ww a - ww a) * (ww a - ww a)) with 0 by ring.
  apply Qcmul_nonneg; exact H.
Qed.
Lemma near4_neg a b tol : tol < 0 -> near4 a b tol = false.
Proof. intros H. destruct (near4 a b tol) eqn:E; [|reflexivity]. apply near4_spec in E as (E & _). exfalso. qc_lra. Qed.

Lemma pos_nz (x : Qc) : 0 < x -> x <> 0.
Proof. intros H ->. exact (Qclt_not_eq _ _ H eq_refl). Qed.

Section Remove.
  Variables (U : list Qc) (P : list vec4) (u : Qc) (n p s r : nat).
  Hypothesis HM : mono (knot U).
  Hypothesis HL : length U = (n + p + 2)%nat.
  Hypothesis HP : length P = S n.
  Hypothesis Hs : (1 <= s <= p)%nat.
  Hypothesis Hr : (p < r <= n)%nat.
  Hypothesis LO : forall i, (i < S r - s)%nat -> knot U i < u.
  Hypothesis HI : u < knot U (S r).
  Let F := (r - p)%nat.
  Let D := (p - s)%nat.
  Let L := (r - s)%nat.
  Let q := (D / 2)%nat.
  Let M := S q.

  Let ratio i := (u - knot U i) / (knot U (i + p + 1) - knot U i).
  Lemma ratio_in i : (F <= i <= L)%nat -> 0 < ratio i /\ ratio i < 1 /\ 0 < knot U (i + p + 1) - knot U i.
  Proof.
    unfold F, L. intros H. pose proof (LO i ltac:(lia)) as A. pose proof (HM (S r) (i + p + 1)%nat ltac:(lia)) as B.
    assert (0 < knot U (i + p + 1) - knot U i) as C by qc_lra. split; [|split; [|exact C]]; unfold ratio.
    - apply Qcdiv_pos_lt; [exact C|qc_lra].
    - apply Qcdiv_lt_pos; [exact C|qc_lra].
  Qed.
  Lemma alpha_i i : (F <= i <= L)%nat -> removal_alpha_i u p U 0 (Z.of_nat i) = Ok (ratio i).
  Proof.
    intros H. destruct (ratio_in i H) as (_ & _ & C). unfold removal_alpha_i. unfold F, L in H.
    rewrite (getZ_ok _ _ 0) by lia. cbn [bind]. rewrite (getZ_ok _ _ 0) by lia. cbn [bind]. rewrite <- !knot_nth by lia.
    rewrite Nat2Z.id. replace (Z.to_nat (Z.of_nat i + Z.of_nat p + 1 + 0)) with (i + p + 1)%nat by lia.
    apply qdiv_ok, pos_nz, C.
  Qed.
  Lemma alpha_j i : (F <= i <= L)%nat -> removal_alpha_j u p U 0 (Z.of_nat i) = Ok (ratio i).
  Proof.
    intros H. destruct (ratio_in i H) as (_ & _ & C). unfold removal_alpha_j. unfold F, L in H.
    rewrite (getZ_ok _ _ 0) by lia. cbn [bind]. rewrite (getZ_ok _ _ 0) by lia. cbn [bind]. rewrite <- !knot_nth by lia.
    replace (Z.to_nat (Z.of_nat i - 0)) with i by lia. replace (Z.to_nat (Z.of_nat i + Z.of_nat p + 1)) with (i + p + 1)%nat by lia.
    apply qdiv_ok, pos_nz, C.
  Qed.

  (** from the left and from the right *)
  Fixpoint lft (m : nat) : vec4 :=
    match m with
    | O => nth (F - 1) P o4
    | Datatypes.S m => vq (v4axmy (nth (F + m) P o4) (1 - ratio (F + m)) (lft m)) (ratio (F + m))
    end.
  Fixpoint rgt (m : nat) : vec4 :=
    match m with
    | O => nth (L + 1) P o4
    | Datatypes.S m => vq (v4axmy (nth (L - m) P o4) (ratio (L - m)) (rgt m)) (1 - ratio (L - m))
    end.

  Lemma lft_put m : (F + m <= L)%nat -> nth (F + m) P o4 = put_in U p u (F + m) (lft m) (lft (S m)).
  Proof.
    intros H. destruct (ratio_in (F + m) ltac:(lia)) as (A & B & C). cbn [lft]. unfold put_in. cbv zeta. fold (ratio (F + m)).
    destruct (nth (F + m) P o4) as [x y z w]. unfold v4axmy, v4axpy, vq. cbn [wx wy wz ww].
    assert (ratio (F + m) <> 0) by (apply pos_nz; qc_lra). f_equal; field; assumption.
  Qed.
  Lemma rgt_put m : (m <= D)%nat -> nth (L - m) P o4 = put_in U p u (L - m) (rgt (S m)) (rgt m).
  Proof.
    intros H. destruct (ratio_in (L - m) ltac:(unfold L, F, D in *; lia)) as (A & B & C). cbn [rgt]. unfold put_in. cbv zeta. fold (ratio (L - m)).
    destruct (nth (L - m) P o4) as [x y z w]. unfold v4axmy, v4axpy, vq. cbn [wx wy wz ww].
    assert (1 - ratio (L - m) <> 0) by (apply pos_nz; qc_lra). f_equal; field; assumption.
  Qed.

  Definition rem_inv (m : nat) (temp : list vec4) : Prop :=
    length temp = (2 * p + 1)%nat /\
    (forall x, (x <= m)%nat -> (x + x < D + 2)%nat -> nth x temp o4 = lft x) /\
    (forall x, (x <= m)%nat -> nth (D + 2 - x) temp o4 = rgt x).

  Lemma D2 : (q + q <= D < q + q + 2)%nat.
  Proof. unfold q. pose proof (Nat.div_mod D 2 ltac:(lia)). pose proof (Nat.mod_upper_bound D 2 ltac:(lia)). lia. Qed.

  Lemma in_loop fuel : forall m temp, (m <= M)%nat -> (M - m <= fuel)%nat -> rem_inv m temp ->
    exists temp', removal_in fuel u p U P 0 (Z.of_nat (F + m)) (Z.of_nat L - Z.of_nat m) (Z.of_nat m + 1) (Z.of_nat D + 1 - Z.of_nat m) temp =
        Ok (Z.of_nat (F + M), (Z.of_nat L - Z.of_nat M)%Z, (Z.of_nat M + 1)%Z, (Z.of_nat D + 1 - Z.of_nat M)%Z, temp') /\ rem_inv M temp'.
  Proof.
    pose proof D2 as HD. assert (L = (F + D)%nat) as EL by (unfold L, F, D; lia).
    induction fuel as [|fuel IH]; intros m temp Hm Hf I.
    - assert (m = M) by lia. subst m. cbn [removal_in]. destruct (Z.leb_spec 0 (Z.of_nat L - Z.of_nat M - Z.of_nat (F + M))); [unfold M in *; lia|].
      exists temp. split; [reflexivity|exact I].
    - cbn [removal_in]. destruct (Z.leb_spec 0 (Z.of_nat L - Z.of_nat m - Z.of_nat (F + m))) as [C|C].
      2:{ assert (m = M) by (unfold M in *; lia). subst m. exists temp. split; [reflexivity|exact I]. }
      assert (m <= q)%nat as Hq by lia. destruct I as (Lt & IA & IB).
      replace (Z.of_nat L - Z.of_nat m)%Z with (Z.of_nat (L - m)) by lia.
      destruct (ratio_in (F + m) ltac:(lia)) as (A1 & A2 & _). destruct (ratio_in (L - m) ltac:(lia)) as (B1 & B2 & _).
      rewrite alpha_i by lia. cbn [bind]. rewrite alpha_j by lia. cbn [bind].
      assert (L < n)%nat as LN by (unfold L; lia).
      rewrite (getZ_ok P _ o4) by lia. cbn [bind]. rewrite (getZ_ok P _ o4) by lia. cbn [bind].
      assert (D + 2 <= 2 * p)%nat as DP by (unfold D; lia).
      rewrite (getZ_ok temp _ o4) by lia. cbn [bind]. rewrite !Nat2Z.id.
      replace (Z.to_nat (Z.of_nat m + 1 - 1)) with m by lia. rewrite (IA m) by lia.
      rewrite v4quot_ok by (apply pos_nz; qc_lra). cbn [bind]. change (vq _ _) with (lft (S m)).
      destruct (set_nthZ_ok temp (Z.of_nat m + 1) (lft (S m))) as (t1 & E1 & L1 & G1); [lia|lia|].
      rewrite E1. cbn [bind]. rewrite (getZ_ok t1 _ o4) by lia. cbn [bind].
      replace (Z.to_nat (Z.of_nat D + 1 - Z.of_nat m + 1)) with (D + 2 - m)%nat by lia.
      assert (nth (D + 2 - m) t1 o4 = rgt m) as ->.
      { rewrite G1. replace (Z.to_nat (Z.of_nat m + 1)) with (S m) by lia. destruct (Nat.eqb_spec (D + 2 - m) (S m)); [lia|]. apply IB. lia. }
      rewrite v4quot_ok by (apply pos_nz; qc_lra). cbn [bind]. change (vq _ _) with (rgt (S m)).
      destruct (set_nthZ_ok t1 (Z.of_nat D + 1 - Z.of_nat m) (rgt (S m))) as (t2 & E2 & L2 & G2); [lia|lia|].
      rewrite E2. cbn [bind].
      replace (Z.of_nat (F + m) + 1)%Z with (Z.of_nat (F + S m)) by lia.
      replace (Z.of_nat (L - m) - 1)%Z with (Z.of_nat L - Z.of_nat (S m))%Z by lia.
      replace (Z.of_nat m + 1 + 1)%Z with (Z.of_nat (S m) + 1)%Z by lia.
      replace (Z.of_nat D + 1 - Z.of_nat m - 1)%Z with (Z.of_nat D + 1 - Z.of_nat (S m))%Z by lia.
      apply IH; [unfold M; lia|lia|]. split; [lia|].
      replace (Z.to_nat (Z.of_nat D + 1 - Z.of_nat m)) with (D + 1 - m)%nat in G2 by lia.
      replace (Z.to_nat (Z.of_nat m + 1)) with (S m) in G1 by lia. split; intros x Hx.
      + intros Hx2. rewrite G2. destruct (Nat.eqb_spec x (D + 1 - m)); [lia|]. rewrite G1. destruct (Nat.eqb_spec x (S m)) as [->|]; [reflexivity|]. apply IA; lia.
      + rewrite G2. destruct (Nat.eqb_spec (D + 2 - x) (D + 1 - m)).
        { f_equal. lia. }
        rewrite G1. destruct (Nat.eqb_spec (D + 2 - x) (S m)); [lia|]. apply IB. lia.
  Qed.

  (** the points before and behind the place of the knot *)
  Definition leftA (i : nat) : vec4 := if Nat.ltb i F then nth i P o4 else lft (i - F + 1).
  Definition rightB (i : nat) : vec4 := if Nat.leb L i then nth (i + 1) P o4 else rgt (L - i).

  Lemma out_loop temp fuel : rem_inv M temp -> forall m new, (F + m <= L + 1 - m)%nat -> (L + 1 - m - (F + m) <= fuel)%nat -> length new = S n ->
    exists new', removal_out fuel 0 (Z.of_nat (F + m)) (Z.of_nat L - Z.of_nat m) (Z.of_nat F) temp new = Ok new' /\ length new' = S n /\
      forall i, nth i new' o4 =
        if (Nat.leb (F + m) i && Nat.ltb (i + i) (F + L))%bool then leftA i
        else if (Nat.ltb (F + L) (i + i) && Nat.leb i (L - m))%bool then rightB (i - 1)
        else nth i new o4.
  Proof.
    intros (Lt & IA & IB). pose proof D2 as HD. assert (L = (F + D)%nat) as EL by (unfold L, F, D; lia). unfold M in *.
    assert (L < n)%nat as LN by (unfold L; lia). assert (D + 2 <= 2 * p)%nat as DP by (unfold D; lia). assert (1 <= F)%nat as F1 by (unfold F; lia).
    induction fuel as [|fuel IH]; intros m new Hm Hf Ln.
    - cbn [removal_out]. destruct (Z.ltb_spec 0 (Z.of_nat L - Z.of_nat m - Z.of_nat (F + m))); [lia|].
      exists new. split; [reflexivity|]. split; [exact Ln|]. intros i.
      destruct (Nat.leb_spec (F + m) i); destruct (Nat.ltb_spec (i + i) (F + L)); destruct (Nat.ltb_spec (F + L) (i + i)); destruct (Nat.leb_spec i (L - m)); cbn [andb]; try reflexivity; lia.
    - cbn [removal_out]. destruct (Z.ltb_spec 0 (Z.of_nat L - Z.of_nat m - Z.of_nat (F + m))) as [C|C].
      2:{ exists new. split; [reflexivity|]. split; [exact Ln|]. intros i.
          destruct (Nat.leb_spec (F + m) i); destruct (Nat.ltb_spec (i + i) (F + L)); destruct (Nat.ltb_spec (F + L) (i + i)); destruct (Nat.leb_spec i (L - m)); cbn [andb]; try reflexivity; lia. }
      rewrite (getZ_ok temp _ o4) by lia. cbn [bind].
      replace (Z.to_nat (Z.of_nat (F + m) - Z.of_nat F + 1)) with (S m) by lia. rewrite (IA (S m)) by lia.
      destruct (set_nthZ_ok new (Z.of_nat (F + m)) (lft (S m))) as (n1 & E1 & L1 & G1); [lia|lia|]. rewrite E1. cbn [bind].
      rewrite (getZ_ok temp _ o4) by lia. cbn [bind].
      replace (Z.to_nat (Z.of_nat L - Z.of_nat m - Z.of_nat F + 1)) with (D + 2 - S m)%nat by lia. rewrite (IB (S m)) by lia.
      destruct (set_nthZ_ok n1 (Z.of_nat L - Z.of_nat m) (rgt (S m))) as (n2 & E2 & L2 & G2); [lia|lia|]. rewrite E2. cbn [bind].
      replace (Z.of_nat (F + m) + 1)%Z with (Z.of_nat (F + S m)) by lia.
      replace (Z.of_nat L - Z.of_nat m - 1)%Z with (Z.of_nat L - Z.of_nat (S m))%Z by lia.
      destruct (IH (S m) n2) as (n3 & E3 & L3 & G3); [lia|lia|lia|]. exists n3. split; [exact E3|]. split; [exact L3|].
      intros i. rewrite G3, G2, G1. rewrite Nat2Z.id. replace (Z.to_nat (Z.of_nat L - Z.of_nat m)) with (L - m)%nat by lia.
      destruct (Nat.leb_spec (F + S m) i); destruct (Nat.leb_spec (F + m) i); destruct (Nat.ltb_spec (i + i) (F + L)); destruct (Nat.ltb_spec (F + L) (i + i));
        destruct (Nat.leb_spec i (L - m)); destruct (Nat.leb_spec i (L - S m)); cbn [andb]; try reflexivity; try lia;
        destruct (Nat.eqb_spec i (L - m)); destruct (Nat.eqb_spec i (F + m)); try reflexivity; try lia.
      all: try (subst i; unfold leftA; destruct (Nat.ltb_spec (F + m) F); [lia|]; f_equal; lia).
      all: try (subst i; unfold rightB; destruct (Nat.leb_spec L (L - m - 1)); [lia|]; f_equal; lia).
  Qed.

  Definition removable (tol : Qc) : bool := near4 (if Nat.even D then leftA (F + q) else leftA (F + q)) (if Nat.even D then leftA (F + q) else rightB (F + q)) tol.

  Lemma even_D : Nat.even D = true <-> D = (q + q)%nat.
  Proof.
    pose proof D2 as HD. split; intros E.
    - apply Nat.even_spec in E as (x & E). lia.
    - rewrite E. apply Nat.even_spec. exists q. lia.
  Qed.

  Lemma round_ok tol : exists new temp a b, removal_round u p U P tol 0 (P, repeat v4zero (2 * p + 1), (Z.of_nat r - Z.of_nat p)%Z, (Z.of_nat r - Z.of_nat s)%Z) = Ok (new, temp, a, b) /\
    length new = S n /\
    forall i, (i <= n)%nat -> nth i new o4 = if removable tol then stitched leftA (F + q) (if Nat.even D then nth (F + q) P o4 else leftA (F + q)) rightB i else nth i P o4.
  Proof.
    pose proof D2 as HD. assert (L = (F + D)%nat) as EL by (unfold L, F, D; lia).
    assert (L < n)%nat as LN by (unfold L; lia). assert (D + 2 <= 2 * p)%nat as DP by (unfold D; lia). assert (1 <= F)%nat as F1 by (unfold F; lia).
    unfold removal_round. change (Z.of_nat 0) with 0%Z.
    replace (Z.of_nat r - Z.of_nat p)%Z with (Z.of_nat F) by (unfold F; lia). replace (Z.of_nat r - Z.of_nat s)%Z with (Z.of_nat L) by (unfold L; lia).
    replace (Z.of_nat L - Z.of_nat F + 2)%Z with (Z.of_nat (D + 2)) by lia. rewrite Nat2Z.id.
    rewrite (getZ_ok P _ o4) by lia. cbn [bind].
    destruct (set_nthZ_ok (repeat v4zero (2 * p + 1)) 0 (nth (Z.to_nat (Z.of_nat F - 1)) P o4)) as (t1 & E1 & L1 & G1); [lia|rewrite repeat_length; lia|].
    rewrite E1. cbn [bind]. rewrite repeat_length in L1. rewrite (getZ_ok P _ o4) by lia. cbn [bind].
    destruct (set_nthZ_ok t1 (Z.of_nat (D + 2)) (nth (Z.to_nat (Z.of_nat L + 1)) P o4)) as (t2 & E2 & L2 & G2); [lia|lia|].
    rewrite E2. cbn [bind].
    destruct (in_loop (D + 2) 0 t2) as (t3 & E3 & I3); [unfold M; lia|unfold M; lia| |].
    { split; [lia|]. change (Z.to_nat 0) with 0%nat in G1. rewrite Nat2Z.id in G2. split; intros x Hx.
      - intros _. assert (x = 0)%nat by lia. subst x. rewrite G2. destruct (Nat.eqb_spec 0 (D + 2)); [lia|]. rewrite G1. cbn [Nat.eqb lft]. f_equal. lia.
      - assert (x = 0)%nat by lia. subst x. rewrite G2. rewrite Nat.sub_0_r, Nat.eqb_refl. cbn [rgt]. f_equal. lia. }
    replace (Z.of_nat (F + 0)) with (Z.of_nat F) in E3 by lia. replace (Z.of_nat L - Z.of_nat 0)%Z with (Z.of_nat L) in E3 by lia.
    replace (Z.of_nat D + 1 - Z.of_nat 0)%Z with (Z.of_nat L - Z.of_nat F + 1)%Z in E3 by lia. change (Z.of_nat 0 + 1)%Z with 1%Z in E3.
    rewrite E3. cbn [bind].
    destruct (Z.ltb_spec (Z.of_nat L - Z.of_nat M - Z.of_nat (F + M)) 0); [|unfold M in *; lia].
    rewrite (getZ_ok t3 _ o4) by (unfold M in *; destruct I3; lia). cbn [bind]. rewrite (getZ_ok t3 _ o4) by (unfold M in *; destruct I3; lia). cbn [bind].
    replace (Z.to_nat (Z.of_nat M + 1 - 1)) with M by lia. replace (Z.to_nat (Z.of_nat D + 1 - Z.of_nat M + 1)) with (D + 2 - M)%nat by (unfold M; lia).
    assert (near4 (nth M t3 o4) (nth (D + 2 - M) t3 o4) tol = removable tol) as ->.
    { destruct I3 as (Lt & IA & IB). unfold removable. destruct (Nat.even D) eqn:ED.
      - apply even_D in ED. replace (D + 2 - M)%nat with M by (unfold M; lia).
        destruct (Qclt_le_dec tol 0) as [N|N]; [rewrite !near4_neg by exact N; reflexivity|rewrite !near4_refl by exact N; reflexivity].
      - assert (D <> q + q)%nat as ND by (intros E; apply even_D in E; congruence).
        rewrite (IB M) by lia. rewrite (IA M) by (unfold M; lia). f_equal.
        + unfold leftA. destruct (Nat.ltb_spec (F + q) F); [lia|]. f_equal. unfold M. lia.
        + unfold rightB. destruct (Nat.leb_spec L (F + q)); [lia|]. f_equal. unfold M. lia. }
    destruct (removable tol).
    2:{ cbn [bind]. do 4 eexists. split; [reflexivity|]. split; [exact HP|]. reflexivity. }
    destruct (out_loop t3 (D + 2) I3 0 P) as (new & E4 & L4 & G4); [lia|lia|exact HP|].
    replace (Z.of_nat (F + 0)) with (Z.of_nat F) in E4 by lia. replace (Z.of_nat L - Z.of_nat 0)%Z with (Z.of_nat L) in E4 by lia. rewrite E4. cbn [bind]. do 4 eexists. split; [reflexivity|]. split; [exact L4|].
    intros i Hi. rewrite G4. rewrite Nat.add_0_r, Nat.sub_0_r. unfold stitched.
    destruct (Nat.ltb_spec i (F + q)); destruct (Nat.eqb_spec i (F + q)); try lia; destruct (Nat.leb_spec F i); destruct (Nat.ltb_spec (i + i) (F + L)); destruct (Nat.ltb_spec (F + L) (i + i)); destruct (Nat.leb_spec i L); cbn [andb]; try lia; try reflexivity.
    all: try (unfold leftA; destruct (Nat.ltb_spec i F); [reflexivity|lia]).
    all: try (subst i; destruct (Nat.even D) eqn:ED; [apply even_D in ED; lia|reflexivity]).
    all: try (subst i; destruct (Nat.even D) eqn:ED; [reflexivity|assert (D <> q + q)%nat as ND by (intros E; apply even_D in E; congruence); lia]).
    all: try (unfold rightB; destruct (Nat.leb_spec L (i - 1)); [f_equal; lia|lia]).
  Qed.
End Remove.

Lemma removal_exact n p U P u tol : valid_knots n p U -> length P = S n -> knot U p < u -> u < knot U (n + 1) -> separated U u ->
  (1 <= multiplicity U u <= p)%nat ->
  exists r A B Q, (p < r <= n)%nat /\ knot U r <= u /\ u < knot U (r + 1) /\
    let first := (r - p)%nat in
    let last := (r - multiplicity U u)%nat in
    let half := ((last - first) / 2)%nat in
    let mid := (first + half)%nat in
    (forall i, (i < first)%nat -> A i = nth i P (V4 0 0 0 0)) /\
    (forall i, (first <= i <= mid)%nat -> nth i P (V4 0 0 0 0) = put_in U p u i (A (i - 1)%nat) (A i)) /\
    (forall i, (last <= i)%nat -> B i = nth (i + 1) P (V4 0 0 0 0)) /\
    (forall i, (last - half <= i <= last)%nat -> nth i P (V4 0 0 0 0) = put_in U p u i (B (i - 1)%nat) (B i)) /\
    knot_removal p U P u tol 1 = Ok Q /\ length Q = n /\
    (Nat.even (last - first) = true -> 0 <= tol ->
       forall i, (i < n)%nat -> nth i Q (V4 0 0 0 0) = stitched A mid (nth mid P (V4 0 0 0 0)) B i) /\
    (Nat.even (last - first) = true -> tol < 0 -> forall i, (i < n)%nat -> nth i Q (V4 0 0 0 0) = nth i P (V4 0 0 0 0)) /\
    (Nat.even (last - first) = false -> within4 (A mid) (B mid) tol ->
       forall i, (i < n)%nat -> nth i Q (V4 0 0 0 0) = stitched A mid (A mid) B i) /\
    (Nat.even (last - first) = false -> ~ within4 (A mid) (B mid) tol -> forall i, (i < n)%nat -> nth i Q (V4 0 0 0 0) = nth i P (V4 0 0 0 0)).
Proof.
  intros V LP T1 T2 SEP Hs. pose proof V as (Hpn & HL & HS & HN). pose proof (sorted_mono U HS) as M.
  destruct (domain_span n p U u V ltac:(qc_lra) T2) as (r & Hr & R1 & R2).
  assert (p < r)%nat as Hpr.
  { destruct (Nat.eq_dec r p) as [->|]; [|lia]. exfalso. destruct (multiplicity_span U p u HS ltac:(lia) R1 R2) as (_ & _ & S3).
    rewrite (S3 p) in T1 by lia. exact (Qclt_not_le _ _ T1 (Qcle_refl _)). }
  set (s := multiplicity U u) in *.
  destruct (multiplicity_span U r u HS ltac:(lia) R1 R2) as (S1 & S2 & S3). fold s in S1, S2, S3.
  destruct (round_ok U P u n p s r M HL LP Hs ltac:(lia) S2 R2 tol) as (new & temp & a & b & E & LN & G).
  exists r, (leftA U P u p r), (rightB U P u p s r), (firstn n new).
  split; [lia|]. split; [exact R1|]. split; [rewrite Nat.add_1_r; exact R2|]. cbv zeta.
  replace (r - s - (r - p))%nat with (p - s)%nat by lia. set (D := (p - s)%nat) in *.
  pose proof (D2 U P n p s r HL LP Hs ltac:(lia)) as HD. fold D in HD. set (q := (D / 2)%nat) in *. set (F := (r - p)%nat) in *. set (L := (r - s)%nat) in *.
  assert (L = F + D)%nat as EL by (unfold L, F, D; lia).
  split; [|split; [|split; [|split]]].
  - intros i Hi. unfold leftA. fold F. destruct (Nat.ltb_spec i F); [reflexivity|lia].
  - intros i Hi. pose proof (lft_put U P u n p s r M HL LP Hs ltac:(lia) S2 R2 (i - F)) as K. fold F L in K. replace (F + (i - F))%nat with i in K by lia.
    change (nth i P o4 = put_in U p u i (leftA U P u p r (i - 1)) (leftA U P u p r i)). rewrite K by lia.
    unfold leftA. fold F. destruct (Nat.ltb_spec i F); [lia|]. destruct (Nat.ltb_spec (i - 1) F).
    + replace (i - F)%nat with 0%nat by lia. cbn [lft Nat.add]. fold F. replace (i - 1)%nat with (F - 1)%nat by lia. reflexivity.
    + f_equal; f_equal; lia.
  - intros i Hi. unfold rightB. fold L. destruct (Nat.leb_spec L i); [reflexivity|lia].
  - intros i Hi. pose proof (rgt_put U P u n p s r M HL LP Hs ltac:(lia) S2 R2 (L - i)) as K. fold D L in K. replace (L - (L - i))%nat with i in K by lia.
    change (nth i P o4 = put_in U p u i (rightB U P u p s r (i - 1)) (rightB U P u p s r i)). rewrite K by lia.
    unfold rightB. fold L. destruct (Nat.leb_spec L (i - 1)); [lia|]. destruct (Nat.leb_spec L i).
    + replace (L - i)%nat with 0%nat by lia. replace (L - (i - 1))%nat with 1%nat by lia. replace i with L by lia. reflexivity.
    + f_equal; f_equal; lia.
  - assert (knot_removal p U P u tol 1 = Ok (firstn n new)) as EK.
    { unfold knot_removal. destruct P as [|P0 P'] eqn:EP; [discriminate LP|]. rewrite <- EP in *. clear EP P0 P'.
      rewrite LP. replace (S n - 1)%nat with n by lia.
      rewrite (find_span_at n p U r u M) by (lia || assumption). cbn [bind]. rewrite find_multiplicity_spec by exact SEP. fold s.
      cbn [for_up]. change (fun t st => removal_round u p U P tol t st) with (removal_round u p U P tol). rewrite E. cbn [bind].
      destruct (Nat.ltb_spec (length new) 1); [lia|]. rewrite LN. do 2 f_equal. lia. }
    split; [exact EK|]. split; [rewrite firstn_length; lia|].
    assert (forall i, (i < n)%nat -> nth i (firstn n new) (V4 0 0 0 0) = nth i new o4) as NF.
    { intros i Hi. unfold o4. rewrite <- (firstn_skipn n new) at 2. rewrite app_nth1 by (rewrite firstn_length; lia). reflexivity. }
    unfold removable in G. fold D F q in G.
    split; [|split; [|split]]; intros ED T i Hi; rewrite NF by exact Hi; rewrite G by lia; rewrite ED.
    + rewrite near4_refl by exact T. reflexivity.
    + rewrite near4_neg by exact T. reflexivity.
    + apply near4_spec in T. rewrite T. reflexivity.
    + destruct (near4 (leftA U P u p r (F + q)) (rightB U P u p s r (F + q)) tol) eqn:EN; [apply near4_spec in EN; destruct (T EN)|]. reflexivity.
Qed.

(** ** the tolerance *)
Lemma tolerance_ignored n p U P u tol tol' : valid_knots n p U -> length P = S n -> knot U p < u -> u < knot U (n + 1) -> separated U u ->
  (1 <= multiplicity U u <= p)%nat -> Nat.even (p - multiplicity U u) = true -> 0 <= tol -> 0 <= tol' ->
  knot_removal p U P u tol 1 = knot_removal p U P u tol' 1.
Proof.
  intros V LP T1 T2 SEP Hs ED N N'.
  pose proof V as (Hpn & HL & HS & HN). pose proof (sorted_mono U HS) as M.
  destruct (domain_span n p U u V ltac:(qc_lra) T2) as (r & Hr & R1 & R2).
  assert (p < r)%nat as Hpr.
  { destruct (Nat.eq_dec r p) as [->|]; [|lia]. exfalso. destruct (multiplicity_span U p u HS ltac:(lia) R1 R2) as (_ & _ & S3).
    rewrite (S3 p) in T1 by lia. exact (Qclt_not_le _ _ T1 (Qcle_refl _)). }
  set (s := multiplicity U u) in *.
  destruct (multiplicity_span U r u HS ltac:(lia) R1 R2) as (S1 & S2 & S3). fold s in S1, S2, S3.
  destruct (round_ok U P u n p s r M HL LP Hs ltac:(lia) S2 R2 tol) as (new & temp & a & b & E & LN & G).
  destruct (round_ok U P u n p s r M HL LP Hs ltac:(lia) S2 R2 tol') as (new' & temp' & a' & b' & E' & LN' & G').
  assert (new = new') as EN.
  { apply (nth_ext _ _ o4 o4); [lia|]. intros i Hi. rewrite G, G' by lia. unfold removable. rewrite ED. rewrite !near4_refl by assumption. reflexivity. }
  unfold knot_removal. destruct P as [|P0 P'] eqn:EP; [reflexivity|]. rewrite <- EP in *. clear EP P0 P'.
  rewrite LP. replace (S n - 1)%nat with n by lia.
  rewrite (find_span_at n p U r u M) by (lia || assumption). cbn [bind]. rewrite find_multiplicity_spec by exact SEP. fold s.
  cbn [for_up]. rewrite E, E'. cbn [bind]. rewrite EN. reflexivity.
Qed.

(** ** a knot put in and taken out again *)
Lemma v4_ext a b : (forall f, comp4 f -> f a = f b) -> a = b.
Proof. intros H. destruct a as [a1 a2 a3 a4], b as [b1 b2 b3 b4]. pose proof (H wx ltac:(unfold comp4; auto)). pose proof (H wy ltac:(unfold comp4; auto)). pose proof (H wz ltac:(unfold comp4; auto)). pose proof (H ww ltac:(unfold comp4; auto)). cbn in *. congruence. Qed.
Lemma comp4_put f U p t i X Y : comp4 f -> f (put_in U p t i X Y) =
  (t - knot U i) / (knot U (i + p + 1) - knot U i) * f Y + (1 - (t - knot U i) / (knot U (i + p + 1) - knot U i)) * f X.
Proof. intros [-> | [-> | [-> | ->]]]; reflexivity. Qed.
Lemma in_firstn (k : nat) (U : list Qc) x : In x (firstn k U) -> In x U.
Proof. intros H. rewrite <- (firstn_skipn k U). apply in_app_iff. auto. Qed.
Lemma in_skipn (k : nat) (U : list Qc) x : In x (skipn k U) -> In x U.
Proof. intros H. rewrite <- (firstn_skipn k U). apply in_app_iff. auto. Qed.
Lemma mult_insert U k t : multiplicity (firstn k U ++ repeat t 1 ++ skipn k U) t = S (multiplicity U t).
Proof.
  unfold multiplicity. rewrite !filter_app, !app_length. cbn [repeat filter]. assert (Qceqb t t = true) as -> by (destruct (Qceqb_spec t t); congruence).
  rewrite <- (firstn_skipn k U) at 3. rewrite filter_app, app_length. cbn [length]. lia.
Qed.

Lemma roundtrip c n t c' tol : good_curve c n -> knot (nc_knots c) (nc_degree c) < t -> t < knot (nc_knots c) (n + 1) -> separated (nc_knots c) t ->
  (1 + multiplicity (nc_knots c) t <= nc_degree c)%nat -> insert_knot c t 1 = Ok c' -> 0 <= tol ->
  exists mid X Q, (1 <= mid <= n)%nat /\ knot_removal (nc_degree c) (nc_knots c') (nc_cps c') t tol 1 = Ok Q /\    Q = firstn (S n) (firstn mid (nc_cps c) ++ X :: skipn mid (nc_cps c)).
Proof.
  intros (HP & V & H8) T1 T2 SEP Hm EI HT. pose proof V as (Hpn & HL & HS & HN).
  destruct (domain_span n (nc_degree c) (nc_knots c) t V ltac:(qc_lra) T2) as (k & Hk & K1 & K2).
  destruct (insert_knot_ok c n t 1 k HP V H8 Hk K1 K2 SEP Hm) as (cps & kv & iv & E & EKV & _ & LC & G).
  rewrite E in EI. injection EI as <-. cbn [nc_knots nc_cps nc_set_interval nc_set_knots nc_set_cps]. clear E iv.
  set (U := nc_knots c) in *. set (p := nc_degree c) in *. set (P := nc_cps c) in *. pose proof (sorted_mono U HS) as M.
  destruct (inserted_valid n p U k t 1 V Hk K1 K2) as (V' & A1 & A2). rewrite <- EKV in V', A1, A2.
  assert (forall i, knot kv i = insr (knot U) k t 1 i) as KV by (intros; rewrite EKV; apply kv_knot; lia).
  assert (multiplicity kv t = S (multiplicity U t)) as MU by (rewrite EKV; apply mult_insert).
  destruct (multiplicity_span U k t HS ltac:(lia) K1 K2) as (S1 & S2 & S3).
  set (s := multiplicity U t) in *.
  assert (separated kv t) as SEP'.
  { intros x Hx. rewrite EKV in Hx. apply in_app_iff in Hx as [Hx|Hx]; [apply SEP, (in_firstn _ _ _ Hx)|].
    apply in_app_iff in Hx as [Hx|Hx]; [left; exact (repeat_spec _ _ _ Hx)|apply SEP, (in_skipn _ _ _ Hx)]. }
  destruct (removal_exact (n + 1) p kv cps t tol V' ltac:(lia) ltac:(rewrite A1; exact T1) ltac:(rewrite A2; exact T2) SEP' ltac:(lia)) as (r & A & B & Q & Hr & R1 & R2 & EX).
  assert (r = k + 1)%nat as ER.
  { rewrite KV in R1, R2. destruct (Nat.lt_trichotomy r (k + 1)) as [C|[C|C]]; [|exact C|]; exfalso.
    - destruct (Nat.le_gt_cases (r + 1) k) as [C2|C2].
      + rewrite insr_lo in R2 by lia. pose proof (M (r + 1)%nat k ltac:(lia)). qc_lra.
      + rewrite insr_mid in R2 by lia. qc_lra.
    - rewrite (insr_hi _ _ _ 1 r (r - 1)) in R1 by lia. pose proof (M (S k) (r - 1)%nat ltac:(lia)). qc_lra. }
  subst r. cbv zeta in EX. rewrite MU in EX. replace (k + 1 - S s)%nat with (k - s)%nat in EX by lia.
  set (F := (k + 1 - p)%nat) in *. set (L := (k - s)%nat) in *. set (half := ((L - F) / 2)%nat) in *.
  assert (half + half <= L - F < half + half + 2)%nat as HD.
  { unfold half. pose proof (Nat.div_mod (L - F) 2 ltac:(lia)). pose proof (Nat.mod_upper_bound (L - F) 2 ltac:(lia)). lia. }
  assert (F <= L)%nat as FL by (unfold F, L; lia).
  destruct EX as (EA0 & EA & EB0 & EB & EQ & LQ & C1 & _ & C2 & _).
  assert (forall i, (F <= i <= L)%nat -> nth i cps o4 = put_in kv p t i (nth (i - 1) P o4) (nth i P o4)) as GP.
  { intros i Hi. apply v4_ext. intros f Hf. rewrite comp4_put by exact Hf. change o4 with d4. rewrite (G i) by (try exact Hf; unfold L in *; lia).
    change (pq (knot U) k p t (fun j => f (nth j P d4)) 1 i) with (pq (knot U) k p t (fun j => f (nth j P d4)) (S 0) i).
    rewrite (pq_mid (knot U) k t p s (fun i => f (nth i P d4)) ltac:(lia) 0 i) by (unfold F, L in *; lia).
    cbn [pq]. rewrite !KV. rewrite insr_lo by (unfold L in *; lia). rewrite (insr_hi _ _ _ 1 (i + p + 1) (i + p)) by (unfold F in *; lia).
    rewrite Nat.sub_0_r. ring. }
  assert (forall i, (F <= i <= L)%nat -> 0 < (t - knot kv i) / (knot kv (i + p + 1) - knot kv i) /\ (t - knot kv i) / (knot kv (i + p + 1) - knot kv i) < 1) as RT.
  { intros i Hi. rewrite !KV. rewrite insr_lo by (unfold L in *; lia). rewrite (insr_hi _ _ _ 1 (i + p + 1) (i + p)) by (unfold F in *; lia).
    pose proof (S2 i ltac:(unfold L in *; lia)). pose proof (M (S k) (i + p)%nat ltac:(unfold F in *; lia)).
    split; [apply Qcdiv_pos_lt|apply Qcdiv_lt_pos]; qc_lra. }
  assert (forall i, (i < F + half + 1)%nat -> A i = nth i P o4) as RA.
  { induction i as [i IH] using (well_founded_induction Wf_nat.lt_wf). intros Hi. destruct (Nat.lt_ge_cases i F) as [C|C].
    - rewrite EA0 by exact C. apply v4_ext. intros f Hf. change (V4 0 0 0 0) with d4. rewrite (G i) by (try exact Hf; unfold L in *; lia).
      change (pq (knot U) k p t (fun j => f (nth j P d4)) 1 i) with (pq (knot U) k p t (fun j => f (nth j P d4)) (S 0) i).
      rewrite (pq_left1 (knot U) k t p (fun i => f (nth i P d4)) ltac:(lia) 0 i) by (unfold F in *; lia). reflexivity.
    - pose proof (EA i ltac:(lia)) as E1. change (V4 0 0 0 0) with o4 in E1. rewrite GP in E1 by lia. rewrite (IH (i - 1)%nat) in E1 by (unfold F in *; lia).
      destruct (RT i ltac:(lia)) as (Q1 & _). apply v4_ext. intros f Hf. pose proof (f_equal f E1) as E2. rewrite !comp4_put in E2 by exact Hf.
      set (a := (t - knot kv i) / (knot kv (i + p + 1) - knot kv i)) in *. clearbody a.
      assert (a * (f (nth i P o4) - f (A i)) = 0) as E3 by (transitivity ((a * f (nth i P o4) + (1 - a) * f (nth (i - 1) P o4)) - (a * f (A i) + (1 - a) * f (nth (i - 1) P o4))); [ring|rewrite E2; ring]).
      apply Qcmult_integral in E3 as [E3|E3]; [subst a; exfalso; qc_lra|]. qc_lra. }
  assert (forall m, (m <= half + 1)%nat -> forall i, (L - m <= i)%nat -> (i <= n)%nat -> B i = nth i P o4) as RB.
  { induction m as [|m IH]; intros Hm' i Hi Hn.
    - rewrite EB0 by lia. apply v4_ext. intros f Hf. change (V4 0 0 0 0) with d4. rewrite (G (i + 1)%nat) by (try exact Hf; lia).
      change (pq (knot U) k p t (fun j => f (nth j P d4)) 1 (i + 1)) with (pq (knot U) k p t (fun j => f (nth j P d4)) (S 0) (i + 1)).
      rewrite (pq_right1 (knot U) k t p s (fun i => f (nth i P d4)) ltac:(lia) ltac:(intros j Hj; apply S3; lia) 0 (i + 1)) by (unfold L in *; lia).
      cbn [pq]. do 2 f_equal. lia.
    - destruct (Nat.le_gt_cases (L - m) i) as [C|C]; [apply IH; lia|].
      pose proof (EB (i + 1)%nat ltac:(lia)) as E1. change (V4 0 0 0 0) with o4 in E1. rewrite GP in E1 by lia. replace (i + 1 - 1)%nat with i in E1 by lia.
      rewrite (IH ltac:(lia) (i + 1)%nat) in E1 by (unfold L in *; lia).
      destruct (RT (i + 1)%nat ltac:(lia)) as (_ & Q1). apply v4_ext. intros f Hf. pose proof (f_equal f E1) as E2. rewrite !comp4_put in E2 by exact Hf.
      set (a := (t - knot kv (i + 1)) / (knot kv (i + 1 + p + 1) - knot kv (i + 1))) in *. clearbody a.
      assert ((1 - a) * (f (nth i P o4) - f (B i)) = 0) as E3 by (transitivity ((a * f (nth (i + 1) P o4) + (1 - a) * f (nth i P o4)) - (a * f (nth (i + 1) P o4) + (1 - a) * f (B i))); [ring|rewrite E2; ring]).
      apply Qcmult_integral in E3 as [E3|E3]; [exfalso; qc_lra|]. qc_lra. }
  exists (F + half)%nat, (if Nat.even (L - F) then nth (F + half) cps o4 else nth (F + half) P o4), Q.
  split; [unfold F, L in *; lia|]. split; [exact EQ|].
  apply (nth_ext _ _ o4 o4).
  { rewrite firstn_length, app_length. cbn [length]. rewrite firstn_length, skipn_length. unfold F, L in *. lia. }
  intros i Hi. rewrite LQ in Hi.
  assert (nth i Q o4 = stitched A (F + half) (if Nat.even (L - F) then nth (F + half) cps o4 else nth (F + half) P o4) B i) as ->.
  { destruct (Nat.even (L - F)) eqn:ED; [apply C1; auto|]. rewrite <- (RA (F + half)%nat) by lia. apply C2; [reflexivity| |exact Hi].
    rewrite (RA (F + half)%nat) by lia. rewrite (RB (half + 1)%nat) by (unfold L in *; lia). apply near4_spec, near4_refl, HT. }
  set (X := if Nat.even (L - F) then nth (F + half) cps o4 else nth (F + half) P o4).
  assert (nth i (firstn (S n) (firstn (F + half) P ++ X :: skipn (F + half) P)) o4 = nth i (firstn (F + half) P ++ X :: skipn (F + half) P) o4) as ->.
  { rewrite <- (firstn_skipn (S n) (firstn (F + half) P ++ X :: skipn (F + half) P)) at 2.
    rewrite app_nth1; [reflexivity|]. rewrite firstn_length, app_length. cbn [length]. rewrite firstn_length, skipn_length. unfold F, L in *. lia. }
  assert (length (firstn (F + half) P) = F + half)%nat as LF by (rewrite firstn_length; unfold F, L in *; lia).
  unfold stitched. destruct (Nat.ltb_spec i (F + half)) as [C|C]; [|destruct (Nat.eqb_spec i (F + half)) as [C'|C']].
  - rewrite app_nth1 by lia. rewrite RA by lia. rewrite <- (firstn_skipn (F + half) P) at 1. rewrite app_nth1 by lia. reflexivity.
  - rewrite app_nth2 by lia. replace (i - length (firstn (F + half) P))%nat with 0%nat by lia. reflexivity.
  - rewrite app_nth2 by lia. rewrite LF. destruct (i - (F + half))%nat as [|j] eqn:EJ; [lia|]. cbn [nth].
    rewrite (RB (half + 1)%nat) by (unfold L in *; lia). rewrite <- (firstn_skipn (F + half) P) at 1. rewrite app_nth2 by lia. f_equal. lia.
Qed.

(** ** points away from the knot *)
Lemma removal_out_frame fuel t : (0 <= t)%Z -> forall i j first temp new new' x, removal_out fuel t i j first temp new = Ok new' ->
  (Z.of_nat x < i \/ j < Z.of_nat x)%Z -> nth x new' o4 = nth x new o4.
Proof.
  intros Ht. assert (forall (l : list vec4) k y l' x, set_nthZ l k y = Ok l' -> Z.of_nat x <> k -> nth x l' o4 = nth x l o4) as SET.
  { intros l k y l' x E N. unfold set_nthZ in E. destruct (Z.ltb_spec k 0); [discriminate|].
    destruct (Nat.lt_ge_cases (Z.to_nat k) (length l)) as [C|C].
    - destruct (set_nth_ok l (Z.to_nat k) y C) as (l1 & E1 & _ & G1). rewrite E in E1. injection E1 as <-. rewrite G1. destruct (Nat.eqb_spec x (Z.to_nat k)); [lia|reflexivity].
    - exfalso. clear N. revert l' E. generalize dependent (Z.to_nat k). induction l as [|b l IH]; intros m C l' E; [destruct m; discriminate E|].
      destruct m as [|m]; [cbn in C; lia|]. cbn in E. destruct (set_nth l m y) as [l2| |] eqn:F; try discriminate. apply (IH m ltac:(cbn in C; lia) l2 F). }
  induction fuel as [|fuel IH]; intros i j first temp new new' x; cbn [removal_out]; destruct (Z.ltb_spec t (j - i)); try discriminate; try (intros [= <-]; reflexivity).
  intros E Hx. apply bind_inv in E as (a & _ & E). apply bind_inv in E as (n1 & E1 & E). apply bind_inv in E as (b & _ & E). apply bind_inv in E as (n2 & E2 & E).
  rewrite (IH _ _ _ _ _ _ x E) by lia. 
  destruct (Z.eq_dec (Z.of_nat x) j) as [C|C].
  { lia. }
  rewrite (SET _ _ _ _ x E2) by lia. destruct (Z.eq_dec (Z.of_nat x) i) as [C'|C']; [lia|]. apply (SET _ _ _ _ x E1 C').
Qed.

Lemma rounds_frame u p U P tol k : forall t0 new temp f l new' temp' f' l', for_up k t0 (removal_round u p U P tol) (new, temp, f, l) = Ok (new', temp', f', l') ->
  forall x, (Z.of_nat x < f - Z.of_nat k + 1 \/ l + Z.of_nat k - 1 < Z.of_nat x)%Z -> nth x new' o4 = nth x new o4.
Proof.
  induction k as [|k IH]; intros t0 new temp f l new' temp' f' l' E x Hx; cbn [for_up] in E; [injection E as -> _ _ _; reflexivity|].
  apply bind_inv in E as ((((new1 & tp1) & f1) & l1) & ES & E). rewrite (IH _ _ _ _ _ _ _ _ _ E x).
  - unfold removal_round in ES.
    apply bind_inv in ES as (? & _ & ES). apply bind_inv in ES as (? & _ & ES). apply bind_inv in ES as (? & _ & ES). apply bind_inv in ES as (? & _ & ES).
    apply bind_inv in ES as (((((i1 & j1) & ii1) & jj1) & tp2) & _ & ES).
    apply bind_inv in ES as (ok & _ & ES). apply bind_inv in ES as (new2 & E2 & ES). injection ES as -> _ _ _.
    destruct ok; [|injection E2 as ->; reflexivity]. apply (removal_out_frame _ (Z.of_nat t0) ltac:(lia) _ _ _ _ _ _ x E2). lia.
  - assert (f1 = f - 1 /\ l1 = l + 1)%Z as (-> & ->); [|lia]. unfold removal_round in ES.
    apply bind_inv in ES as (? & _ & ES). apply bind_inv in ES as (? & _ & ES). apply bind_inv in ES as (? & _ & ES). apply bind_inv in ES as (? & _ & ES).
    apply bind_inv in ES as (((((i1 & j1) & ii1) & jj1) & tp2) & _ & ES).
    apply bind_inv in ES as (ok & _ & ES). apply bind_inv in ES as (new2 & E2 & ES). injection ES as _ _ <- <-. auto.
Qed.
Lemma removal_frame n p U P u tol num Q r : valid_knots n p U -> length P = S n -> knot U p <= u -> u < knot U (n + 1) -> separated U u ->
  (p <= r <= n)%nat -> knot U r <= u -> u < knot U (r + 1) -> knot_removal p U P u tol num = Ok Q -> length Q = (S n - num)%nat /\
  forall i, (i < length Q)%nat -> (i + p + num <= r \/ r + num <= i + multiplicity U u)%nat -> nth i Q (V4 0 0 0 0) = nth i P (V4 0 0 0 0).
Proof.
  intros V LP T1 T2 SEP Hr R1 R2 E. pose proof (removal_length _ _ _ _ _ _ _ E) as LQ. split; [lia|]. intros i Hi Hx.
  pose proof V as (Hpn & HL & HS & HN). pose proof (sorted_mono U HS) as M. rewrite Nat.add_1_r in R2.
  unfold knot_removal in E. destruct P as [|P0 P'] eqn:EP; [discriminate LP|]. rewrite <- EP in *. clear EP P0 P'.
  rewrite LP in E. replace (S n - 1)%nat with n in E by lia.
  rewrite (find_span_at n p U r u M) in E by (lia || assumption). cbn [bind] in E. rewrite find_multiplicity_spec in E by exact SEP.
  apply bind_inv in E as ((((new & tp) & a) & b) & E1 & E). destruct (Nat.ltb (length new) num); [discriminate|]. injection E as <-.
  change (V4 0 0 0 0) with o4. rewrite <- (rounds_frame _ _ _ _ _ _ _ _ _ _ _ _ _ _ _ E1 i) by lia.
  set (k := (length new - num)%nat) in *. transitivity (nth i (firstn k new ++ skipn k new) o4); [symmetry; apply app_nth1; exact Hi|]. rewrite firstn_skipn. reflexivity.
Qed.

Lemma tolerance_odd n p U P u tol : valid_knots n p U -> length P = S n -> knot U p < u -> u < knot U (n + 1) -> separated U u ->
  (1 <= multiplicity U u <= p)%nat -> Nat.even (p - multiplicity U u) = false ->
  exists r A B Q, (p < r <= n)%nat /\ knot U r <= u /\ u < knot U (r + 1) /\
    let mid := (r - p + (p - multiplicity U u) / 2)%nat in
    (forall i, (i < r - p)%nat -> A i = nth i P (V4 0 0 0 0)) /\
    (forall i, (r - p <= i <= mid)%nat -> nth i P (V4 0 0 0 0) = put_in U p u i (A (i - 1)%nat) (A i)) /\
    (forall i, (r - multiplicity U u <= i)%nat -> B i = nth (i + 1) P (V4 0 0 0 0)) /\
    (forall i, (mid < i <= r - multiplicity U u)%nat -> nth i P (V4 0 0 0 0) = put_in U p u i (B (i - 1)%nat) (B i)) /\
    knot_removal p U P u tol 1 = Ok Q /\
    (~ within4 (A mid) (B mid) tol -> Q = firstn n P) /\
    (within4 (A mid) (B mid) tol -> length Q = n /\ forall i, (i < n)%nat -> nth i Q (V4 0 0 0 0) = stitched A mid (A mid) B i).
Proof.
  intros V LP T1 T2 SEP Hs ED.
  destruct (removal_exact n p U P u tol V LP T1 T2 SEP Hs) as (r & A & B & Q & Hr & R1 & R2 & EX). exists r, A, B, Q.
  split; [exact Hr|]. split; [exact R1|]. split; [exact R2|]. cbv zeta in *. set (s := multiplicity U u) in *.
  replace (r - s - (r - p))%nat with (p - s)%nat in EX by lia.
  destruct EX as (EA0 & EA & EB0 & EB & EQ & LQ & _ & _ & C1 & C2).
  assert ((p - s) / 2 + (p - s) / 2 + 1 = p - s)%nat as HD.
  { pose proof (Nat.div_mod (p - s) 2 ltac:(lia)). pose proof (Nat.mod_upper_bound (p - s) 2 ltac:(lia)).
    destruct (Nat.eq_dec ((p - s) mod 2) 0) as [Z|Z]; [|lia]. exfalso. apply Nat.mod_divide in Z as (x & Z); [|lia].
    assert (Nat.even (p - s) = true) by (apply Nat.even_spec; exists x; lia). congruence. }
  split; [exact EA0|]. split; [exact EA|]. split; [exact EB0|]. split; [intros i Hi; apply EB; lia|]. split; [exact EQ|]. split.
  - intros W. apply (nth_ext _ _ (V4 0 0 0 0) (V4 0 0 0 0)); [rewrite firstn_length; lia|]. intros i Hi. rewrite (C2 ED W) by lia.
    rewrite <- (firstn_skipn n P) at 1. apply app_nth1. rewrite firstn_length. lia.
  - intros W. split; [exact LQ|]. exact (C1 ED W).
Qed.
