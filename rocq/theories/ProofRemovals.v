(** What taking out a knot several times returns. *)
From Coq Require Import List ZArith QArith Qcanon Bool Lia Lqa Field.
From Verif Require Import Base BaseFacts LoopFacts ModelVec ModelNurbs ModelSurface ModelRefine SpecNurbs SpecCurve SpecRefine SpecRemovals
  ProofBspline ProofInsertion ProofNurbs ProofInsertCurve ProofInsertKnot ProofMinimize ProofRefine ProofRefineMisc ProofRemoval.
Import ListNotations.
Open Scope Qc_scope.

(** which points the copying loop has replaced when [m] steps are still to come *)
Definition todo {A} (F L D t m i : nat) (a b c : A) : A :=
  if (Nat.leb F i && Nat.ltb (2 * (i - F)) (D - t) && Nat.leb (F + m) i)%bool then a
  else if (Nat.leb i L && Nat.ltb (2 * (L - i)) (D - t) && Nat.leb i (L - m))%bool then b
  else c.
Ltac cases :=
  repeat match goal with
  | |- context [Nat.leb ?a ?b] => destruct (Nat.leb_spec a b); cbn [andb]; try lia; try reflexivity
  | |- context [Nat.ltb ?a ?b] => destruct (Nat.ltb_spec a b); cbn [andb]; try lia; try reflexivity
  end.
Lemma todo_none {A} F L D t m i (a b c : A) : L = (F + D)%nat -> (D - t <= 2 * m)%nat -> todo F L D t m i a b c = c.
Proof. intros. unfold todo. cases. Qed.
Lemma todo_left {A} F L D t m (a b c : A) : L = (F + D)%nat -> (2 * m < D - t)%nat -> todo F L D t m (F + m) a b c = a.
Proof. intros. unfold todo. cases. Qed.
Lemma todo_left_next {A} F L D t m (a b c : A) : L = (F + D)%nat -> (2 * m < D - t)%nat -> todo F L D t (S m) (F + m) a b c = c.
Proof. intros. unfold todo. cases. Qed.
Lemma todo_right {A} F L D t m (a b c : A) : L = (F + D)%nat -> (2 * m < D - t)%nat -> todo F L D t m (L - m) a b c = b.
Proof. intros. unfold todo. cases. Qed.
Lemma todo_right_next {A} F L D t m (a b c : A) : L = (F + D)%nat -> (2 * m < D - t)%nat -> todo F L D t (S m) (L - m) a b c = c.
Proof. intros. unfold todo. cases. Qed.
Lemma todo_next {A} F L D t m i (a b c : A) : L = (F + D)%nat -> i <> (F + m)%nat -> i <> (L - m)%nat -> todo F L D t (S m) i a b c = todo F L D t m i a b c.
Proof. intros. unfold todo. cases. Qed.

Section Round.
  Variables (U : list Qc) (P : list vec4) (u : Qc) (n p s r t : nat).
  Hypothesis HM : mono (knot U).
  Hypothesis HL : length U = (n + p + 2)%nat.
  Hypothesis HP : length P = S n.
  Hypothesis Hs : (1 <= s <= p)%nat.
  Hypothesis Ht : (t < s)%nat.
  Hypothesis Hr : (p + s <= r <= n)%nat.
  Hypothesis LO : forall i, (i < S r - s)%nat -> knot U i < u.
  Hypothesis HI : u < knot U (S r).
  Let F := (r - p - t)%nat.
  Let D := (p - s + 2 * t)%nat.
  Let L := (r - s + t)%nat.
  Let q := ((p - s + t) / 2)%nat.
  Let M := S q.

  Let ai i := (u - knot U i) / (knot U (i + p + 1 + t) - knot U i).
  Let aj j := (u - knot U (j - t)) / (knot U (j + p + 1) - knot U (j - t)).

  Lemma q2 : (q + q <= p - s + t < q + q + 2)%nat.
  Proof. unfold q. pose proof (Nat.div_mod (p - s + t) 2 ltac:(lia)). pose proof (Nat.mod_upper_bound (p - s + t) 2 ltac:(lia)). lia. Qed.

  Lemma part (a b : nat) : (a < S r - s)%nat -> (S r <= b)%nat ->
    let x := (u - knot U a) / (knot U b - knot U a) in 0 < x /\ x < 1 /\ 0 < knot U b - knot U a.
  Proof.
    intros Ha Hb x. pose proof (LO a Ha) as A. pose proof (HM (S r) b Hb) as B.
    assert (0 < knot U b - knot U a) as C by qc_lra. split; [|split; [|exact C]]; unfold x.
    - apply Qcdiv_pos_lt; [exact C|qc_lra].
    - apply Qcdiv_lt_pos; [exact C|qc_lra].
  Qed.
  Lemma ai_in i : (F <= i <= F + q)%nat -> 0 < ai i /\ ai i < 1 /\ 0 < knot U (i + p + 1 + t) - knot U i.
  Proof. pose proof q2. unfold F. intros H1. exact (part i (i + p + 1 + t) ltac:(lia) ltac:(lia)). Qed.
  Lemma aj_in j : (L - q <= j <= L)%nat -> 0 < aj j /\ aj j < 1 /\ 0 < knot U (j + p + 1) - knot U (j - t).
  Proof. pose proof q2. unfold L. intros H1. exact (part (j - t) (j + p + 1) ltac:(lia) ltac:(lia)). Qed.

  Lemma alpha_it i : (F <= i <= F + q)%nat -> removal_alpha_i u p U (Z.of_nat t) (Z.of_nat i) = Ok (ai i).
  Proof.
    intros H. destruct (ai_in i H) as (_ & _ & C). unfold removal_alpha_i. pose proof q2. unfold F in H.
    rewrite (getZ_ok _ _ 0) by lia. cbn [bind]. rewrite (getZ_ok _ _ 0) by lia. cbn [bind]. rewrite <- !knot_nth by lia.
    rewrite Nat2Z.id. replace (Z.to_nat (Z.of_nat i + Z.of_nat p + 1 + Z.of_nat t)) with (i + p + 1 + t)%nat by lia.
    apply qdiv_ok, pos_nz, C.
  Qed.
  Lemma alpha_jt j : (L - q <= j <= L)%nat -> removal_alpha_j u p U (Z.of_nat t) (Z.of_nat j) = Ok (aj j).
  Proof.
    intros H. destruct (aj_in j H) as (_ & _ & C). unfold removal_alpha_j. pose proof q2. unfold L in H.
    rewrite (getZ_ok _ _ 0) by lia. cbn [bind]. rewrite (getZ_ok _ _ 0) by lia. cbn [bind]. rewrite <- !knot_nth by lia.
    replace (Z.to_nat (Z.of_nat j - Z.of_nat t)) with (j - t)%nat by lia. replace (Z.to_nat (Z.of_nat j + Z.of_nat p + 1)) with (j + p + 1)%nat by lia.
    apply qdiv_ok, pos_nz, C.
  Qed.

  Fixpoint lftt (m : nat) : vec4 :=
    match m with
    | O => nth (F - 1) P o4
    | Datatypes.S m => vq (v4axmy (nth (F + m) P o4) (1 - ai (F + m)) (lftt m)) (ai (F + m))
    end.
  Fixpoint rgtt (m : nat) : vec4 :=
    match m with
    | O => nth (L + 1) P o4
    | Datatypes.S m => vq (v4axmy (nth (L - m) P o4) (aj (L - m)) (rgtt m)) (1 - aj (L - m))
    end.
  Lemma lftt_put m : (m <= q)%nat -> nth (F + m) P o4 = between (knot U (F + m)) (knot U (F + m + p + 1 + t)) u (lftt m) (lftt (S m)).
  Proof.
    intros H. destruct (ai_in (F + m) ltac:(lia)) as (A & B & C). cbn [lftt]. unfold between. cbv zeta. fold (ai (F + m)).
    destruct (nth (F + m) P o4) as [x y z w]. unfold v4axmy, v4axpy, vq. cbn [wx wy wz ww].
    assert (ai (F + m) <> 0) by (apply pos_nz; qc_lra). f_equal; field; assumption.
  Qed.
  Lemma rgtt_put m : (m <= q)%nat -> nth (L - m) P o4 = between (knot U (L - m - t)) (knot U (L - m + p + 1)) u (rgtt (S m)) (rgtt m).
  Proof.
    intros H. destruct (aj_in (L - m) ltac:(lia)) as (A & B & C). cbn [rgtt]. unfold between. cbv zeta. fold (aj (L - m)).
    destruct (nth (L - m) P o4) as [x y z w]. unfold v4axmy, v4axpy, vq. cbn [wx wy wz ww].
    assert (1 - aj (L - m) <> 0) by (apply pos_nz; qc_lra). f_equal; field; assumption.
  Qed.

  Definition round_inv (m : nat) (temp : list vec4) : Prop :=
    length temp = (2 * p + 1)%nat /\
    (forall x, (x <= m)%nat -> (x + x < D + 2)%nat -> nth x temp o4 = lftt x) /\
    (forall x, (x <= m)%nat -> nth (D + 2 - x) temp o4 = rgtt x).

  Lemma bounds : L = (F + D)%nat /\ (1 <= F)%nat /\ (L < n)%nat /\ (D + 2 <= 2 * p)%nat /\ (q + t <= D)%nat /\ (q + q + t <= D < q + q + t + 2)%nat.
  Proof. pose proof q2. unfold L, F, D. lia. Qed.

  Lemma in_loopt fuel : forall m temp, (m <= M)%nat -> (M - m <= fuel)%nat -> round_inv m temp ->
    exists temp', removal_in fuel u p U P (Z.of_nat t) (Z.of_nat (F + m)) (Z.of_nat L - Z.of_nat m) (Z.of_nat m + 1) (Z.of_nat D + 1 - Z.of_nat m) temp =
        Ok (Z.of_nat (F + M), (Z.of_nat L - Z.of_nat M)%Z, (Z.of_nat M + 1)%Z, (Z.of_nat D + 1 - Z.of_nat M)%Z, temp') /\ round_inv M temp'.
  Proof.
    destruct bounds as (EL & F1 & LN & DP & QD & QQ).
    induction fuel as [|fuel IH]; intros m temp Hm Hf I.
    - assert (m = M) by lia. subst m. cbn [removal_in]. destruct (Z.leb_spec (Z.of_nat t) (Z.of_nat L - Z.of_nat M - Z.of_nat (F + M))); [unfold M in *; lia|].
      exists temp. split; [reflexivity|exact I].
    - cbn [removal_in]. destruct (Z.leb_spec (Z.of_nat t) (Z.of_nat L - Z.of_nat m - Z.of_nat (F + m))) as [C|C].
      2:{ assert (m = M) by (unfold M in *; lia). subst m. exists temp. split; [reflexivity|exact I]. }
      assert (m <= q)%nat as Hq by lia. destruct I as (Lt & IA & IB).
      replace (Z.of_nat L - Z.of_nat m)%Z with (Z.of_nat (L - m)) by lia.
      destruct (ai_in (F + m) ltac:(lia)) as (A1 & A2 & _). destruct (aj_in (L - m) ltac:(lia)) as (B1 & B2 & _).
      rewrite alpha_it by lia. cbn [bind]. rewrite alpha_jt by lia. cbn [bind].
      rewrite (getZ_ok P _ o4) by lia. cbn [bind]. rewrite (getZ_ok P _ o4) by lia. cbn [bind].
      rewrite (getZ_ok temp _ o4) by lia. cbn [bind]. rewrite !Nat2Z.id.
      replace (Z.to_nat (Z.of_nat m + 1 - 1)) with m by lia. rewrite (IA m) by lia.
      rewrite v4quot_ok by (apply pos_nz; qc_lra). cbn [bind]. change (vq _ _) with (lftt (S m)).
      destruct (set_nthZ_ok temp (Z.of_nat m + 1) (lftt (S m))) as (t1 & E1 & L1 & G1); [lia|lia|].
      rewrite E1. cbn [bind]. rewrite (getZ_ok t1 _ o4) by lia. cbn [bind].
      replace (Z.to_nat (Z.of_nat D + 1 - Z.of_nat m + 1)) with (D + 2 - m)%nat by lia.
      assert (nth (D + 2 - m) t1 o4 = rgtt m) as ->.
      { rewrite G1. replace (Z.to_nat (Z.of_nat m + 1)) with (S m) by lia. destruct (Nat.eqb_spec (D + 2 - m) (S m)); [lia|]. apply IB. lia. }
      rewrite v4quot_ok by (apply pos_nz; qc_lra). cbn [bind]. change (vq _ _) with (rgtt (S m)).
      destruct (set_nthZ_ok t1 (Z.of_nat D + 1 - Z.of_nat m) (rgtt (S m))) as (t2 & E2 & L2 & G2); [lia|lia|].
      rewrite E2. cbn [bind].
      replace (Z.of_nat (F + m) + 1)%Z with (Z.of_nat (F + S m)) by lia.
      replace (Z.of_nat (L - m) - 1)%Z with (Z.of_nat L - Z.of_nat (S m))%Z by lia.
      replace (Z.of_nat m + 1 + 1)%Z with (Z.of_nat (S m) + 1)%Z by lia.
      replace (Z.of_nat D + 1 - Z.of_nat m - 1)%Z with (Z.of_nat D + 1 - Z.of_nat (S m))%Z by lia.
      apply IH; [unfold M; lia|lia|]. split; [lia|].
      replace (Z.to_nat (Z.of_nat D + 1 - Z.of_nat m)) with (D + 1 - m)%nat in G2 by lia.
      replace (Z.to_nat (Z.of_nat m + 1)) with (S m) in G1 by lia. split; intros x Hx.
      + intros Hx2. rewrite G2. destruct (Nat.eqb_spec x (D + 1 - m)); [lia|]. rewrite G1. destruct (Nat.eqb_spec x (S m)) as [->|]; [reflexivity|]. apply IA; lia.
      + rewrite G2. destruct (Nat.eqb_spec (D + 2 - x) (D + 1 - m)).
        { f_equal. lia. }
        rewrite G1. destruct (Nat.eqb_spec (D + 2 - x) (S m)); [lia|]. apply IB. lia.
  Qed.

  Definition lefts (i : nat) : vec4 := if Nat.ltb i F then nth i P o4 else lftt (i - F + 1).
  Definition rights (i : nat) : vec4 := if Nat.ltb L i then nth i P o4 else rgtt (L - i + 1).

  (** the points a round replaces *)
  Definition is_left (i : nat) : bool := (Nat.leb F i && Nat.ltb (2 * (i - F)) (p - s + t))%bool.
  Definition is_right (i : nat) : bool := (Nat.leb i L && Nat.ltb (2 * (L - i)) (p - s + t))%bool.

  Lemma out_loopt temp fuel : round_inv M temp -> forall m new, (2 * m <= D - t + 1)%nat -> (D + 1 - t - 2 * m <= fuel)%nat -> length new = S n ->
    exists new', removal_out fuel (Z.of_nat t) (Z.of_nat (F + m)) (Z.of_nat L - Z.of_nat m) (Z.of_nat F) temp new = Ok new' /\ length new' = S n /\
      forall i, nth i new' o4 = todo F L D t m i (lefts i) (rights i) (nth i new o4).
  Proof.
    intros (Lt & IA & IB). destruct bounds as (EL & F1 & LN & DP & QD & QQ). unfold M in *.
    assert (forall m, (m <= q)%nat -> lefts (F + m) = lftt (S m)) as EA.
    { intros m _. unfold lefts. destruct (Nat.ltb_spec (F + m) F); [lia|]. f_equal. lia. }
    assert (forall m, (m <= L)%nat -> rights (L - m) = rgtt (S m)) as EB.
    { intros m Hm. unfold rights. destruct (Nat.ltb_spec L (L - m)); [lia|]. f_equal. lia. }
    revert IA IB EL F1 LN DP QD QQ EA EB. generalize lefts rights lftt rgtt. generalize F L D q.
    clear - Lt. intros F L D q lefts rights lftt rgtt IA IB EL F1 LN DP QD QQ EA EB.
    induction fuel as [|fuel IH]; intros m new Hm Hf Ln.
    - cbn [removal_out]. destruct (Z.ltb_spec (Z.of_nat t) (Z.of_nat L - Z.of_nat m - Z.of_nat (F + m))); [lia|].
      exists new. split; [reflexivity|]. split; [exact Ln|]. intros i. rewrite todo_none by lia. reflexivity.
    - cbn [removal_out]. destruct (Z.ltb_spec (Z.of_nat t) (Z.of_nat L - Z.of_nat m - Z.of_nat (F + m))) as [C|C].
      2:{ exists new. split; [reflexivity|]. split; [exact Ln|]. intros i. rewrite todo_none by lia. reflexivity. }
      rewrite (getZ_ok temp _ o4) by lia. cbn [bind].
      replace (Z.to_nat (Z.of_nat (F + m) - Z.of_nat F + 1)) with (S m) by lia. rewrite (IA (S m)) by lia.
      destruct (set_nthZ_ok new (Z.of_nat (F + m)) (lftt (S m))) as (n1 & E1 & L1 & G1); [lia|lia|]. rewrite E1. cbn [bind].
      rewrite (getZ_ok temp _ o4) by lia. cbn [bind].
      replace (Z.to_nat (Z.of_nat L - Z.of_nat m - Z.of_nat F + 1)) with (D + 2 - S m)%nat by lia. rewrite (IB (S m)) by lia.
      destruct (set_nthZ_ok n1 (Z.of_nat L - Z.of_nat m) (rgtt (S m))) as (n2 & E2 & L2 & G2); [lia|lia|]. rewrite E2. cbn [bind].
      replace (Z.of_nat (F + m) + 1)%Z with (Z.of_nat (F + S m)) by lia.
      replace (Z.of_nat L - Z.of_nat m - 1)%Z with (Z.of_nat L - Z.of_nat (S m))%Z by lia.
      destruct (IH (S m) n2) as (n3 & E3 & L3 & G3); [lia|lia|lia|]. exists n3. split; [exact E3|]. split; [exact L3|].
      intros i. rewrite G3, G2, G1. rewrite Nat2Z.id. replace (Z.to_nat (Z.of_nat L - Z.of_nat m)) with (L - m)%nat by lia.
      destruct (Nat.eqb_spec i (F + m)) as [->|N1].
      + rewrite todo_left, todo_left_next by lia. destruct (Nat.eqb_spec (F + m) (L - m)); [lia|]. symmetry. apply EA. lia.
      + destruct (Nat.eqb_spec i (L - m)) as [->|N2].
        * rewrite todo_right, todo_right_next by lia. symmetry. apply EB. lia.
        * apply todo_next; assumption.
  Qed.

  Definition accepted (tol : Qc) : bool :=
    if (Nat.eqb t 0 && Nat.even (p - s))%bool then 0 <=? tol else near4 (lefts (F + q)) (rights (L - q)) tol.

  Lemma round_okt tol new temp : length new = S n -> length temp = (2 * p + 1)%nat -> exists new' temp',
    removal_round u p U P tol t (new, temp, (Z.of_nat r - Z.of_nat p - Z.of_nat t)%Z, (Z.of_nat r - Z.of_nat s + Z.of_nat t)%Z) =
      Ok (new', temp', (Z.of_nat r - Z.of_nat p - Z.of_nat (S t))%Z, (Z.of_nat r - Z.of_nat s + Z.of_nat (S t))%Z) /\
    length new' = S n /\ length temp' = (2 * p + 1)%nat /\
    forall i, nth i new' o4 = if accepted tol then (if is_left i then lefts i else if is_right i then rights i else nth i new o4) else nth i new o4.
  Proof.
    intros LNW LT0. destruct bounds as (EL & F1 & LN & DP & QD & QQ).
    unfold removal_round.
    replace (Z.of_nat r - Z.of_nat p - Z.of_nat t)%Z with (Z.of_nat F) by (unfold F; lia). replace (Z.of_nat r - Z.of_nat s + Z.of_nat t)%Z with (Z.of_nat L) by (unfold L; lia).
    replace (Z.of_nat r - Z.of_nat p - Z.of_nat (S t))%Z with (Z.of_nat F - 1)%Z by (unfold F; lia). replace (Z.of_nat r - Z.of_nat s + Z.of_nat (S t))%Z with (Z.of_nat L + 1)%Z by (unfold L; lia).
    replace (Z.of_nat L - Z.of_nat F + 2)%Z with (Z.of_nat (D + 2)) by lia. rewrite Nat2Z.id.
    rewrite (getZ_ok P _ o4) by lia. cbn [bind].
    destruct (set_nthZ_ok temp 0 (nth (Z.to_nat (Z.of_nat F - 1)) P o4)) as (t1 & E1 & L1 & G1); [lia|lia|].
    rewrite E1. cbn [bind]. rewrite (getZ_ok P _ o4) by lia. cbn [bind].
    destruct (set_nthZ_ok t1 (Z.of_nat (D + 2)) (nth (Z.to_nat (Z.of_nat L + 1)) P o4)) as (t2 & E2 & L2 & G2); [lia|lia|].
    rewrite E2. cbn [bind].
    destruct (in_loopt (D + 2) 0 t2) as (t3 & E3 & I3); [unfold M; lia|unfold M; lia| |].
    { split; [lia|]. change (Z.to_nat 0) with 0%nat in G1. rewrite Nat2Z.id in G2. split; intros x Hx.
      - intros _. assert (x = 0)%nat by lia. subst x. rewrite G2. destruct (Nat.eqb_spec 0 (D + 2)); [lia|]. rewrite G1. cbn [Nat.eqb lftt]. f_equal. lia.
      - assert (x = 0)%nat by lia. subst x. rewrite G2. rewrite Nat.sub_0_r, Nat.eqb_refl. cbn [rgtt]. f_equal. lia. }
    replace (Z.of_nat (F + 0)) with (Z.of_nat F) in E3 by lia. replace (Z.of_nat L - Z.of_nat 0)%Z with (Z.of_nat L) in E3 by lia.
    replace (Z.of_nat D + 1 - Z.of_nat 0)%Z with (Z.of_nat L - Z.of_nat F + 1)%Z in E3 by lia. change (Z.of_nat 0 + 1)%Z with 1%Z in E3.
    rewrite E3. cbn [bind].
    destruct (Z.ltb_spec (Z.of_nat L - Z.of_nat M - Z.of_nat (F + M)) (Z.of_nat t)); [|unfold M in *; lia].
    rewrite (getZ_ok t3 _ o4) by (unfold M in *; destruct I3; lia). cbn [bind]. rewrite (getZ_ok t3 _ o4) by (unfold M in *; destruct I3; lia). cbn [bind].
    replace (Z.to_nat (Z.of_nat M + 1 - 1)) with M by lia. replace (Z.to_nat (Z.of_nat D + 1 - Z.of_nat M + 1)) with (D + 2 - M)%nat by (unfold M; lia).
    assert (near4 (nth M t3 o4) (nth (D + 2 - M) t3 o4) tol = accepted tol) as ->.
    { destruct I3 as (Lt & IA & IB). unfold accepted. destruct (Nat.eqb t 0 && Nat.even (p - s))%bool eqn:ED.
      - apply andb_prop in ED as (T0 & ED). apply Nat.eqb_eq in T0. apply Nat.even_spec in ED as (x & ED). replace (D + 2 - M)%nat with M by (unfold M, D in *; lia).
        destruct (Qclt_le_dec tol 0) as [N|N]; [rewrite !near4_neg by exact N|rewrite !near4_refl by exact N].
        + symmetry. destruct (0 <=? tol) eqn:EB; [apply Qcleb_iff in EB; exfalso; qc_lra|reflexivity].
        + symmetry. apply Qcleb_iff. exact N.
      - assert (t <> 0 \/ D <> q + q)%nat as ND.
        { destruct (Nat.eq_dec t 0) as [T0|]; [right|auto]. intros E. rewrite (proj2 (Nat.eqb_eq t 0) T0) in ED. cbn [andb] in ED. assert (p - s = 2 * q)%nat as E' by (unfold D in E; lia). rewrite E' in ED.
          assert (Nat.even (2 * q) = true) as K by (apply Nat.even_spec; exists q; lia). congruence. }
        rewrite (IB M) by lia. rewrite (IA M) by (unfold M; lia). f_equal.
        + unfold lefts. destruct (Nat.ltb_spec (F + q) F); [lia|]. f_equal. unfold M. lia.
        + unfold rights. destruct (Nat.ltb_spec L (L - q)); [lia|]. f_equal. unfold M. lia. }
    destruct (accepted tol).
    2:{ cbn [bind]. do 2 eexists. split; [reflexivity|]. split; [exact LNW|]. split; [apply I3|]. reflexivity. }
    destruct (out_loopt t3 (D + 2) I3 0 new) as (new' & E4 & L4 & G4); [lia|lia|exact LNW|].
    replace (Z.of_nat (F + 0)) with (Z.of_nat F) in E4 by lia. replace (Z.of_nat L - Z.of_nat 0)%Z with (Z.of_nat L) in E4 by lia. rewrite E4. cbn [bind].
    do 2 eexists. split; [reflexivity|]. split; [exact L4|]. split; [apply I3|].
    intros i. rewrite G4. unfold todo, is_left, is_right. rewrite Nat.add_0_r, Nat.sub_0_r. replace (p - s + t)%nat with (D - t)%nat by (unfold D; lia).
    destruct (Nat.leb F i); cbn [andb]; rewrite ?andb_true_r; [destruct (Nat.ltb _ _); [reflexivity|]|]; destruct (Nat.leb i L); cbn [andb]; rewrite ?andb_true_r; reflexivity.
  Qed.
End Round.

(** the rounds, one after another *)
Lemma rounds_ok U P u n p s r tol : mono (knot U) -> length U = (n + p + 2)%nat -> length P = S n -> (1 <= s <= p)%nat -> (p + s <= r <= n)%nat ->
  (forall i, (i < S r - s)%nat -> knot U i < u) -> u < knot U (S r) ->
  forall num t0 new temp, (t0 + num <= s)%nat -> length new = S n -> length temp = (2 * p + 1)%nat -> exists news temp',
    for_up num t0 (removal_round u p U P tol) (new, temp, (Z.of_nat r - Z.of_nat p - Z.of_nat t0)%Z, (Z.of_nat r - Z.of_nat s + Z.of_nat t0)%Z) =
      Ok (news (t0 + num)%nat, temp', (Z.of_nat r - Z.of_nat p - Z.of_nat (t0 + num))%Z, (Z.of_nat r - Z.of_nat s + Z.of_nat (t0 + num))%Z) /\
    length temp' = (2 * p + 1)%nat /\ news t0 = new /\ (forall t, (t0 <= t <= t0 + num)%nat -> length (news t) = S n) /\
    forall t, (t0 <= t < t0 + num)%nat -> forall i, nth i (news (S t)) o4 =
      if accepted U P u p s r t tol then (if is_left p s r t i then lefts U P u p r t i else if is_right p s r t i then rights U P u p s r t i else nth i (news t) o4) else nth i (news t) o4.
Proof.
  intros HM HL HP Hs Hr LO HI. induction num as [|num IH]; intros t0 new temp Hn LN LT.
  - exists (fun _ => new), temp. rewrite Nat.add_0_r. split; [reflexivity|]. split; [exact LT|]. split; [reflexivity|]. split; [intros; exact LN|]. intros. lia.
  - cbn [for_up]. destruct (round_okt U P u n p s r t0 HM HL HP Hs ltac:(lia) Hr LO HI tol new temp LN LT) as (new1 & temp1 & E1 & LN1 & LT1 & G1).
    change (fun t st => removal_round u p U P tol t st) with (removal_round u p U P tol). rewrite E1. cbn [bind].
    destruct (IH (S t0) new1 temp1 ltac:(lia) LN1 LT1) as (news & temp2 & E2 & LT2 & N0 & LNS & G2). rewrite E2.
    exists (fun t => if Nat.eqb t t0 then new else news t), temp2. replace (t0 + S num)%nat with (S t0 + num)%nat by lia.
    destruct (Nat.eqb_spec (S t0 + num) t0); [lia|]. split; [reflexivity|]. split; [exact LT2|]. rewrite Nat.eqb_refl. split; [reflexivity|]. split.
    + intros t Ht. destruct (Nat.eqb_spec t t0); [exact LN|]. apply LNS. lia.
    + intros t Ht i. destruct (Nat.eqb_spec (S t) t0); [lia|]. destruct (Nat.eqb_spec t t0) as [->|N].
      * rewrite N0. apply G1.
      * apply G2. lia.
Qed.

Lemma interior n p U u : valid_knots n p U -> knot U p < u -> u < knot U (n + 1) -> (1 <= multiplicity U u)%nat ->
  exists r, (p + multiplicity U u <= r <= n)%nat /\ knot U r <= u /\ u < knot U (S r) /\ (forall i, (i < S r - multiplicity U u)%nat -> knot U i < u) /\ knot U (S r - multiplicity U u) = u.
Proof.
  intros V T1 T2 Hm. pose proof V as (Hpn & HL & HS & HN). pose proof (sorted_mono U HS) as M.
  destruct (domain_span n p U u V ltac:(qc_lra) T2) as (r & Hr & R1 & R2).
  destruct (multiplicity_span U r u HS ltac:(lia) R1 R2) as (S1 & S2 & S3). set (s := multiplicity U u) in *.
  exists r. split.
  - split; [|lia]. destruct (Nat.le_gt_cases (p + s) r) as [|C]; [assumption|]. exfalso.
    pose proof (M (S r - s)%nat p ltac:(lia)) as K. rewrite (S3 (S r - s)%nat) in K by lia. qc_lra.
  - split; [exact R1|]. split; [exact R2|]. split; [exact S2|]. apply S3. lia.
Qed.

Lemma removals_exact n p U P u tol num : valid_knots n p U -> length P = S n -> knot U p < u -> u < knot U (n + 1) -> separated U u ->
  (1 <= multiplicity U u <= p)%nat -> (num <= multiplicity U u)%nat ->
  exists r A B news, (p < r <= n)%nat /\ knot U r <= u /\ u < knot U (r + 1) /\
    news 0%nat = P /\ knot_removal p U P u tol num = Ok (firstn (S n - num) (news num)) /\
    forall t, (t < num)%nat ->
    let first := (r - p - t)%nat in
    let last := (r - multiplicity U u + t)%nat in
    let gap := (last - first - t)%nat in
    (forall i, (i < first)%nat -> A t i = nth i P (V4 0 0 0 0)) /\
    (forall i, (first <= i <= first + gap / 2)%nat ->
       nth i P (V4 0 0 0 0) = between (knot U i) (knot U (i + p + 1 + t)) u (A t (i - 1)%nat) (A t i)) /\
    (forall i, (last < i)%nat -> B t i = nth i P (V4 0 0 0 0)) /\
    (forall i, (last - gap / 2 <= i <= last)%nat ->
       nth i P (V4 0 0 0 0) = between (knot U (i - t)) (knot U (i + p + 1)) u (B t i) (B t (i + 1)%nat)) /\
    length (news (S t)) = S n /\
    let met := if (Nat.eqb t 0 && Nat.even gap)%bool then 0 <= tol else within4 (A t (first + gap / 2)%nat) (B t (last - gap / 2)%nat) tol in
    (met -> forall i, (i <= n)%nat -> nth i (news (S t)) (V4 0 0 0 0) =
       if (Nat.leb first i && Nat.ltb (2 * (i - first)) gap)%bool then A t i
       else if (Nat.leb i last && Nat.ltb (2 * (last - i)) gap)%bool then B t i
       else nth i (news t) (V4 0 0 0 0)) /\
    (~ met -> news (S t) = news t).
Proof.
  intros V LP T1 T2 SEP Hs Hn. pose proof V as (Hpn & HL & HS & HN). pose proof (sorted_mono U HS) as M.
  destruct (interior n p U u V T1 T2 ltac:(lia)) as (r & Hr & R1 & R2 & S2 & _). set (s := multiplicity U u) in *.
  destruct (rounds_ok U P u n p s r tol M HL LP Hs Hr S2 R2 num 0 P (repeat v4zero (2 * p + 1)) ltac:(lia) LP (repeat_length _ _)) as (news & temp & E & _ & N0 & LNS & G).
  exists r, (lefts U P u p r), (rights U P u p s r), news.
  split; [lia|]. split; [exact R1|]. split; [rewrite Nat.add_1_r; exact R2|]. split; [exact N0|]. split.
  { unfold knot_removal. destruct P as [|P0 P'] eqn:EP; [discriminate LP|]. rewrite <- EP in *. clear EP P0 P'.
    rewrite LP. replace (S n - 1)%nat with n by lia.
    rewrite (find_span_at n p U r u M) by (lia || assumption). cbn [bind]. rewrite find_multiplicity_spec by exact SEP. fold s.
    rewrite !Z.sub_0_r, !Z.add_0_r in E. cbn [Nat.add] in E. rewrite E. cbn [bind]. rewrite LNS by lia.
    destruct (Nat.ltb_spec (S n) num); [lia|]. reflexivity. }
  intros t Ht. cbv zeta.
  replace (r - s + t - (r - p - t) - t)%nat with (p - s + t)%nat by lia.
  pose proof (Nat.div_mod (p - s + t) 2 ltac:(lia)) as Q. pose proof (Nat.mod_upper_bound (p - s + t) 2 ltac:(lia)) as Q'.
  set (q := ((p - s + t) / 2)%nat) in *.
  assert (Ht' : (t < s)%nat) by lia.
  split; [|split; [|split; [|split; [|split]]]].
  - intros i Hi. unfold lefts. destruct (Nat.ltb_spec i (r - p - t)); [reflexivity|lia].
  - intros i Hi. pose proof (lftt_put U P u n p s r t M HL LP Hs Ht' Hr S2 R2 (i - (r - p - t))) as K. fold q in K. replace (r - p - t + (i - (r - p - t)))%nat with i in K by lia.
    change (nth i P (V4 0 0 0 0)) with (nth i P o4). rewrite K by lia. unfold lefts. destruct (Nat.ltb_spec i (r - p - t)); [lia|]. destruct (Nat.ltb_spec (i - 1) (r - p - t)).
    + replace (i - (r - p - t))%nat with 0%nat by lia. cbn [lftt Nat.add]. replace (i - 1)%nat with (r - p - t - 1)%nat by lia. reflexivity.
    + f_equal; f_equal; lia.
  - intros i Hi. unfold rights. destruct (Nat.ltb_spec (r - s + t) i); [reflexivity|lia].
  - intros i Hi. pose proof (rgtt_put U P u n p s r t M HL LP Hs Ht' Hr S2 R2 (r - s + t - i)) as K. fold q in K. replace (r - s + t - (r - s + t - i))%nat with i in K by lia.
    change (nth i P (V4 0 0 0 0)) with (nth i P o4). rewrite K by lia. unfold rights. destruct (Nat.ltb_spec (r - s + t) i); [lia|]. destruct (Nat.ltb_spec (r - s + t) (i + 1)).
    + replace (r - s + t - i)%nat with 0%nat by lia. cbn [rgtt Nat.add]. replace (i + 1)%nat with (r - s + t + 1)%nat by lia. reflexivity.
    + f_equal; f_equal; lia.
  - apply LNS. lia.
  - assert (met : accepted U P u p s r t tol = true <-> if (Nat.eqb t 0 && Nat.even (p - s + t))%bool then 0 <= tol else
        within4 (lefts U P u p r t (r - p - t + q)) (rights U P u p s r t (r - s + t - q)) tol).
    { unfold accepted. fold q. destruct (Nat.eqb_spec t 0) as [->|]; cbn [andb].
      - replace (p - s + 0)%nat with (p - s)%nat by lia. destruct (Nat.even (p - s)); [apply Qcleb_iff|apply near4_spec].
      - apply near4_spec. }
    pose proof (G t ltac:(lia)) as GT. split.
    + intros H i Hi. apply met in H. change (V4 0 0 0 0) with o4. rewrite GT, H. reflexivity.
    + intros H. assert (accepted U P u p s r t tol = false) as EA by (destruct (accepted U P u p s r t tol); [destruct (H (proj1 met eq_refl))|reflexivity]).
      apply (nth_ext _ _ o4 o4); [rewrite !LNS by lia; reflexivity|]. intros i _. rewrite GT, EA. reflexivity.
Qed.

(** one removal more than there are knots reads in front of the points *)
Lemma for_up_ub {S} (f : nat -> S -> res S) a b i0 st st' : for_up a i0 f st = Ok st' -> f (i0 + a)%nat st' = UB -> (a < b)%nat -> for_up b i0 f st = UB.
Proof.
  revert b i0 st. induction a as [|a IH]; intros b i0 st E F H; destruct b as [|b]; try lia; cbn [for_up] in *.
  - injection E as <-. rewrite Nat.add_0_r in F. rewrite F. reflexivity.
  - destruct (f i0 st) as [x| |] eqn:EF; try discriminate. cbn [bind] in *. apply (IH b (Datatypes.S i0) x E); [|lia]. rewrite <- F. f_equal. lia.
Qed.
Lemma removals_ub n p U P u tol num : valid_knots n p U -> length P = S n -> knot U p < u -> u < knot U (n + 1) -> separated U u ->
  (1 <= multiplicity U u <= p)%nat -> knot U (p + 1) = u -> (multiplicity U u < num)%nat -> knot_removal p U P u tol num = UB.
Proof.
  intros V LP T1 T2 SEP Hs EU Hn. pose proof V as (Hpn & HL & HS & HN). pose proof (sorted_mono U HS) as M.
  destruct (interior n p U u V T1 T2 ltac:(lia)) as (r & Hr & R1 & R2 & S2 & S3). set (s := multiplicity U u) in *.
  assert (r = p + s)%nat as ER.
  { destruct (Nat.le_gt_cases r (p + s)); [lia|]. exfalso. pose proof (S2 (p + 1)%nat ltac:(lia)). rewrite EU in *. qc_lra. }
  destruct (rounds_ok U P u n p s r tol M HL LP Hs Hr S2 R2 s 0 P (repeat v4zero (2 * p + 1)) ltac:(lia) LP (repeat_length _ _)) as (news & temp & E & _ & _).
  unfold knot_removal. destruct P as [|P0 P'] eqn:EP; [discriminate LP|]. rewrite <- EP in *. clear EP P0 P'.
  rewrite LP. replace (S n - 1)%nat with n by lia.
  rewrite (find_span_at n p U r u M) by (lia || assumption). cbn [bind]. rewrite find_multiplicity_spec by exact SEP. fold s.
  rewrite !Z.sub_0_r, !Z.add_0_r in E. cbn [Nat.add] in E. rewrite (for_up_ub _ s num 0 _ _ E); [reflexivity| |exact Hn].
  unfold removal_round. unfold getZ at 1. destruct (Z.ltb_spec (Z.of_nat r - Z.of_nat p - Z.of_nat s - 1) 0); [reflexivity|lia].
Qed.
