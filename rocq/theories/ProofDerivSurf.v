(** Proofs about the control points of derivatives of surfaces. *)
From Coq Require Import List ZArith QArith Qcanon Bool Lia Lqa Field.
From Verif Require Import Base BaseFacts LoopFacts ModelVec ModelNurbs ModelSurface ModelRefine SpecNurbs SpecDerivative SpecRefine
  ProofBspline ProofNurbs ProofInsertCurve ProofSurface ProofInsertKnot ProofSmooth ProofDerivative ProofHodograph ProofRefine ProofDerivCpts.
Import ListNotations.
Open Scope Qc_scope.

Definition dcp4 (U : nat -> Qc) (p : nat) (f : nat -> vec4) (k i : nat) : vec4 :=
  V4 (dcp U p (fun j => wx (f j)) k i) (dcp U p (fun j => wy (f j)) k i) (dcp U p (fun j => wz (f j)) k i) (dcp U p (fun j => ww (f j)) k i).
Lemma dcp4_c U p f k i c : coordinate c -> c (dcp4 U p f k i) = dcp U p (fun j => c (f j)) k i.
Proof. intros [->|[->|[->| ->]]]; reflexivity. Qed.
Lemma vec4_by_c a b : (forall c, coordinate c -> c a = c b) -> a = b.
Proof.
  intros EQ. pose proof (EQ wx (or_introl eq_refl)). pose proof (EQ wy (or_intror (or_introl eq_refl))). pose proof (EQ wz (or_intror (or_intror (or_introl eq_refl)))). pose proof (EQ ww (or_intror (or_intror (or_intror eq_refl)))).
  destruct a, b. cbn in *. congruence.
Qed.
Lemma dcp_ext U p f g k : forall i, (forall x, (i <= x <= i + k)%nat -> f x = g x) -> dcp U p f k i = dcp U p g k i.
Proof. induction k as [|k IH]; intros i H; cbn [dcp]; [apply H; lia|]. rewrite !IH by (intros; apply H; lia). reflexivity. Qed.

(** linear in the points *)
Lemma dcp_lin U p (a : nat -> Qc) (f : nat -> nat -> Qc) m k : forall j, dcp U p (fun j => qsum (fun i => a i * f i j) m) k j = qsum (fun i => a i * dcp U p (f i) k j) m.
Proof.
  induction k as [|k IH]; intros j; cbn [dcp]; [reflexivity|]. rewrite !IH. set (D := U _ - U _). set (x := Qc_of_nat _).
  clearbody D x. clear IH. induction m as [|m IHm]; cbn [qsum]; [unfold Qcdiv; ring|]. rewrite <- IHm. unfold Qcdiv. ring.
Qed.

(** ** tables *)
Definition shape4 {A} (t : list (list (list (list A)))) (a b c d : nat) : Prop :=
  length t = a /\ forall k, (k < a)%nat -> length (nth k t []) = b /\ forall l, (l < b)%nat -> length (nth l (nth k t []) []) = c /\
    forall i, (i < c)%nat -> length (nth i (nth l (nth k t []) []) []) = d.
Lemma nth_repeat_lt {A} (x d : A) i n : (i < n)%nat -> nth i (repeat x n) d = x.
Proof. revert i; induction n as [|n IH]; intros [|i] H; cbn; try lia; [reflexivity|apply IH; lia]. Qed.
Lemma shape4_repeat {A} (x : A) a b c d : shape4 (repeat (repeat (repeat (repeat x d) c) b) a) a b c d.
Proof.
  split; [apply repeat_length|]. intros k Hk. rewrite nth_repeat_lt by assumption. split; [apply repeat_length|]. intros l Hl. rewrite nth_repeat_lt by assumption.
  split; [apply repeat_length|]. intros i Hi. rewrite nth_repeat_lt by assumption. apply repeat_length.
Qed.
Lemma get4_ok t a b c d k l i j : shape4 t a b c d -> (k < a)%nat -> (l < b)%nat -> (i < c)%nat -> (j < d)%nat -> get4 t k l i j = Ok (entry4 t k l i j).
Proof.
  intros (H0 & H1) Hk Hl Hi Hj. destruct (H1 k Hk) as (L1 & H2). destruct (H2 l Hl) as (L2 & H3). specialize (H3 i Hi). unfold get4, entry4.
  rewrite (get_ok t k []) by lia. cbn [bind]. rewrite (get_ok _ l []) by lia. cbn [bind]. rewrite (get_ok _ i []) by lia. cbn [bind]. apply get_ok. lia.
Qed.
Lemma set4_ok t a b c d k l i j x : shape4 t a b c d -> (k < a)%nat -> (l < b)%nat -> (i < c)%nat -> (j < d)%nat ->
  exists t', set4 t k l i j x = Ok t' /\ shape4 t' a b c d /\ entry4 t' k l i j = x /\
    forall k' l' i' j', (k', l', i', j') <> (k, l, i, j) -> entry4 t' k' l' i' j' = entry4 t k' l' i' j'.
Proof.
  intros (H0 & H1) Hk Hl Hi Hj. destruct (H1 k Hk) as (L1 & H2). destruct (H2 l Hl) as (L2 & H3). pose proof (H3 i Hi) as L3.
  unfold set4, set2. rewrite (get_ok t k []) by lia. cbn [bind]. rewrite (get_ok _ l []) by lia. cbn [bind].
  rewrite (get_ok _ i []) by lia. cbn [bind].
  set (tk := nth k t []) in *. set (tl := nth l tk []) in *. set (ti := nth i tl []) in *.
  destruct (set_nth_ok ti j x) as (ti' & E1 & M1 & N1); [lia|]. rewrite E1. cbn [bind].
  destruct (set_nth_ok tl i ti') as (tl' & E2 & M2 & N2); [lia|]. rewrite E2. cbn [bind].
  destruct (set_nth_ok tk l tl') as (tk' & E3 & M3 & N3); [lia|]. rewrite E3. cbn [bind].
  destruct (set_nth_ok t k tk') as (t' & E4 & M4 & N4); [lia|]. exists t'. split; [exact E4|].
  split; [|split].
  - split; [lia|]. intros k' Hk'. rewrite N4. destruct (Nat.eqb_spec k' k) as [->|F]; [|apply H1; assumption]. split; [lia|]. intros l' Hl'. rewrite N3.
    destruct (Nat.eqb_spec l' l) as [->|F]; [|apply H2; assumption]. split; [lia|]. intros i' Hi'. rewrite N2. destruct (Nat.eqb_spec i' i) as [->|F]; [lia|apply H3; assumption].
  - unfold entry4. rewrite N4, Nat.eqb_refl, N3, Nat.eqb_refl, N2, Nat.eqb_refl, N1, Nat.eqb_refl. reflexivity.
  - intros k' l' i' j' NE. unfold entry4. rewrite N4. destruct (Nat.eqb_spec k' k) as [->|F]; [|reflexivity]. rewrite N3. fold tk. destruct (Nat.eqb_spec l' l) as [->|F]; [|reflexivity].
    rewrite N2. fold tl. destruct (Nat.eqb_spec i' i) as [->|F]; [|reflexivity]. rewrite N1. fold ti. destruct (Nat.eqb_spec j' j) as [->|F]; [congruence|reflexivity].
Qed.

(** tables filled with the values of [V] where [D] holds *)
Section Fill.
Variables (a b c d : nat) (V : nat -> nat -> nat -> nat -> vec4).
Definition filled (D : nat -> nat -> nat -> nat -> Prop) (t : list (list (list (list vec4)))) : Prop :=
  shape4 t a b c d /\ forall k l i j, D k l i j -> entry4 t k l i j = V k l i j.
Lemma filled_set D t k l i j : filled D t -> (k < a)%nat -> (l < b)%nat -> (i < c)%nat -> (j < d)%nat ->
  exists t', set4 t k l i j (V k l i j) = Ok t' /\ filled (fun k' l' i' j' => D k' l' i' j' \/ (k' = k /\ l' = l /\ i' = i /\ j' = j)) t'.
Proof.
  intros (S & H) Hk Hl Hi Hj. destruct (set4_ok t a b c d k l i j (V k l i j) S Hk Hl Hi Hj) as (t' & E & S' & E1 & E2). exists t'. split; [exact E|]. split; [exact S'|].
  intros k' l' i' j' [HD|(-> & -> & -> & ->)]; [|exact E1].
  destruct (Nat.eq_dec k' k) as [->|N]; [|rewrite E2 by congruence; auto]. destruct (Nat.eq_dec l' l) as [->|N]; [|rewrite E2 by congruence; auto].
  destruct (Nat.eq_dec i' i) as [->|N]; [|rewrite E2 by congruence; auto]. destruct (Nat.eq_dec j' j) as [->|N]; [exact E1|rewrite E2 by congruence; auto].
Qed.
Lemma filled_sub (D D' : nat -> nat -> nat -> nat -> Prop) t : (forall k l i j, D' k l i j -> D k l i j) -> filled D t -> filled D' t.
Proof. intros H (S & F). split; [exact S|]. auto. Qed.
End Fill.

Section Surface.
Variables (p q n m : nat) (ku kv : list Qc) (cpts : list (list vec4)) (cs0 cs1 r0 r1 s1 order : nat).
Let du := Nat.min p order.
Let dv := Nat.min q order.
Hypothesis Lku : length ku = (n + p + 2)%nat.
Hypothesis Lkv : length kv = (m + q + 2)%nat.
Hypothesis Lrows : (s1 < length cpts)%nat.
Hypothesis Lcols : forall row, In row cpts -> length row = cs0.
Hypothesis Hcs0 : cs0 = S n.
Hypothesis Hcs1 : cs1 = S m.
Hypothesis Hr : (r0 <= r1 <= n)%nat.
Hypothesis Hs : (s1 <= m)%nat.
Hypothesis Du : forall j i, (0 < j <= du)%nat -> (i + j <= r1 - r0)%nat -> knot ku (r0 + i + j) < knot ku (r0 + i + p + 1).
Hypothesis Dv : forall j i, (0 < j <= dv)%nat -> (i + j <= s1)%nat -> knot kv (i + j) < knot kv (i + q + 1).

Definition pt_at (i j : nat) : vec4 := nth i (nth j cpts []) d4.
Definition Gval (k l i j : nat) : vec4 := dcp4 (knot kv) q (fun j => dcp4 (knot ku) p (fun i => pt_at i j) k (r0 + i)) l j.
Let r := (r1 - r0)%nat.
Definition done0 (jj : nat) (k l i j : nat) : Prop := l = 0%nat /\ (k <= du)%nat /\ (i + k <= r)%nat /\ (j < jj)%nat.
Definition doneall (k l i j : nat) : Prop := (k <= du)%nat /\ (i + k <= r)%nat /\ (k + l <= order)%nat /\ (l <= dv)%nat /\ (j + l <= s1)%nat.

Lemma row_vec PU UU PP rr1 rr k row i : row_ok PU UU PP rr1 rr k row -> (i + k <= rr)%nat -> nth i row d4 = dcp4 (knot UU) PU (fun i => nth i PP d4) k (rr1 + i).
Proof. intros (_ & H) Hi. apply vec4_by_c. intros c Hc. rewrite dcp4_c by assumption. apply H; assumption. Qed.

Notation shp := (filled (du + 1) (dv + 1) (r + 1) (s1 + 1) Gval).

Lemma first_loop t : shp (fun _ _ _ _ => False) t ->
  exists t', for_up (s1 + 1) 0 (fun j PKL =>
    row <- get cpts j ;;
    temp <- mapM (get row) (seq 0 cs0) ;;
    PKu <- curve_deriv_cpts p ku temp du r0 r1 ;;
    for_up (du + 1) 0 (fun k PKL =>
      for_up (r + 1 - k) 0 (fun i PKL =>
        x <- (m <- get PKu k ;; get m i) ;; set4 PKL k 0 i (j - 0) x) PKL) PKL) t = Ok t' /\ shp (done0 (s1 + 1)) t'.
Proof.
  intros F. destruct (for_up_inv (fun jj t => shp (done0 jj) t) (fun j PKL =>
    row <- get cpts j ;;
    temp <- mapM (get row) (seq 0 cs0) ;;
    PKu <- curve_deriv_cpts p ku temp du r0 r1 ;;
    for_up (du + 1) 0 (fun k PKL =>
      for_up (r + 1 - k) 0 (fun i PKL =>
        x <- (m <- get PKu k ;; get m i) ;; set4 PKL k 0 i (j - 0) x) PKL) PKL) (s1 + 1) 0 t) as (t' & E & H).
  - eapply filled_sub; [|exact F]. intros k l i j (_ & _ & _ & ?). lia.
  - intros j t1 _ Hj F1. rewrite Nat.sub_0_r. rewrite (get_ok cpts j []) by lia. cbn [bind].
    set (row := nth j cpts []) in *. assert (length row = cs0) as LR by (apply Lcols, nth_In; lia).
    rewrite (mapM_map _ (fun i => nth i row d4)). 2:{ intros i Hi. apply in_seq in Hi. apply get_ok. lia. }
    cbn [bind]. assert (map (fun i => nth i row d4) (seq 0 cs0) = row) as ->.
    { apply (nth_ext_len _ _ d4); [rewrite map_length, seq_length; lia|]. intros i Hi. rewrite map_length, seq_length in Hi.
      rewrite (nth_indep _ d4 ((fun i => nth i row d4) 0%nat)) by (rewrite map_length, seq_length; lia). rewrite (map_nth (fun i => nth i row d4)), seq_nth by lia. reflexivity. }
    destruct (deriv_cpts_rows p ku row du r0 r1 n ltac:(lia) Lku Hr ltac:(unfold du; lia) Du) as (PKu & E & L & _ & R). rewrite E. cbn [bind].
    destruct (for_up_inv (fun kk t => shp (fun k l i j' => done0 j k l i j' \/ (l = 0%nat /\ (k < kk)%nat /\ (i + k <= r)%nat /\ j' = j)) t)
       (fun k PKL => for_up (r + 1 - k) 0 (fun i PKL => x <- (m <- get PKu k ;; get m i) ;; set4 PKL k 0 i j x) PKL) (du + 1) 0 t1) as (t2 & E2 & F2).
    + eapply filled_sub; [|exact F1]. intros k l i j' [?|?]; [assumption|lia].
    + intros k t2 _ Hk F2.
      destruct (for_up_inv (fun ii t => shp (fun k' l i j' => (done0 j k' l i j' \/ (l = 0%nat /\ (k' < k)%nat /\ (i + k' <= r)%nat /\ j' = j)) \/ (l = 0%nat /\ k' = k /\ (i < ii)%nat /\ j' = j)) t)
         (fun i PKL => x <- (m <- get PKu k ;; get m i) ;; set4 PKL k 0 i j x) (r + 1 - k) 0 t2) as (t3 & E3 & F3).
      * eapply filled_sub; [|exact F2]. intros k' l i j' [?|?]; [assumption|lia].
      * intros i t3 _ Hi F3. rewrite (get_ok PKu k []) by lia. cbn [bind]. pose proof (R k ltac:(lia)) as RK. pose proof RK as (LRk & _). rewrite (get_ok _ i d4) by (fold r in LRk; lia). cbn [bind].
        rewrite (row_vec _ _ _ _ _ _ _ i RK) by (fold r; lia).
        change (dcp4 (knot ku) p (fun i => nth i row d4) k (r0 + i)) with (Gval k 0 i j).
        destruct (filled_set _ _ _ _ _ _ t3 k 0 i j F3) as (t4 & E4 & F4); try lia. exists t4. split; [exact E4|]. eapply filled_sub; [|exact F4].
        cbv beta. intros k' l i' j' [H|(-> & -> & H & ->)]; [left; left; exact H|]. destruct (Nat.eq_dec i' i) as [->|NE]; [right; auto|left; right; repeat split; lia].
      * exists t3. split; [exact E3|]. eapply filled_sub; [|exact F3]. cbv beta. intros k' l i j' [H|(-> & Hk' & Hi' & ->)]; [left; left; exact H|].
        destruct (Nat.eq_dec k' k) as [->|NE]; [right; repeat split; lia|left; right; repeat split; lia].
    + exists t2. split; [exact E2|]. eapply filled_sub; [|exact F2]. cbv beta. intros k l i j' (-> & Hk & Hi & Hj').
      destruct (Nat.eq_dec j' j) as [->|NE]; [right; repeat split; lia|left; repeat split; lia].
  - exists t'. split; [exact E|exact H].
Qed.

Lemma second_loop t : shp (done0 (s1 + 1)) t ->
  exists t' temp', for_up (du + 1) 0 (fun k st =>
    for_up (r + 1 - k) 0 (fun i st =>
      let '(PKL, temp) := st in
      let dd := Nat.min (order - k) dv in
      temp <- for_up (s1 + 1) 0 (fun j temp => x <- get4 PKL k 0 i j ;; set_nth temp j x) temp ;;
      PKuv <- curve_deriv_cpts q kv temp dd 0 s1 ;;
      PKL <- for_up dd 1 (fun l PKL =>
        for_up (s1 + 1 - l) 0 (fun j PKL =>
          x <- (m <- get PKuv l ;; get m j) ;; set4 PKL k l i j x) PKL) PKL ;;
      Ok (PKL, temp)) st) (t, repeat v4zero cs1) = Ok (t', temp') /\ shp doneall t'.
Proof.
  intros F0.
  match goal with |- exists t' temp', for_up _ _ ?B _ = _ /\ _ => set (body := B) end.
  destruct (for_up_inv (fun kk st => length (snd st) = cs1 /\ shp (fun k l i j => done0 (s1 + 1) k l i j \/ (doneall k l i j /\ (k < kk)%nat)) (fst st)) body (du + 1) 0 (t, repeat v4zero cs1)) as ((t' & temp') & E & L & F).
  - cbn [fst snd]. split; [apply repeat_length|]. eapply filled_sub; [|exact F0]. intros k l i j [H|[_ H]]; [exact H|lia].
  - intros k (t1 & temp1) _ Hk (L1 & F1). cbn [fst snd] in L1, F1. unfold body.
    match goal with |- exists s', for_up _ _ ?B _ = _ /\ _ => set (bodyi := B) end.
    destruct (for_up_inv (fun ii st => length (snd st) = cs1 /\ shp (fun k' l i j => (done0 (s1 + 1) k' l i j \/ (doneall k' l i j /\ (k' < k)%nat)) \/ (doneall k' l i j /\ k' = k /\ (i < ii)%nat)) (fst st))
      bodyi (r + 1 - k) 0 (t1, temp1)) as ((t2 & temp2) & E2 & L2 & F2).
    + cbn [fst snd]. split; [exact L1|]. eapply filled_sub; [|exact F1]. cbv beta. intros k' l i j [H|(_ & _ & H)]; [exact H|lia].
    + intros i (t2 & temp2) _ Hi (L2 & F2). cbn [fst snd] in L2, F2. unfold bodyi.
      set (dd := Nat.min (order - k) dv).
      destruct (for_up_inv (fun jj temp => length temp = cs1 /\ forall j, (j < jj)%nat -> nth j temp d4 = Gval k 0 i j)
        (fun j temp => x <- get4 t2 k 0 i j ;; set_nth temp j x) (s1 + 1) 0 temp2) as (temp3 & E3 & L3 & N3).
      { split; [exact L2|]. intros; lia. }
      { intros j tp _ Hj (LT & NT). destruct F2 as (SH & V2). rewrite (get4_ok t2 _ _ _ _ k 0 i j SH) by lia. cbn [bind].
        destruct (set_nth_ok tp j (entry4 t2 k 0 i j)) as (tp' & ES & LS & NS); [lia|]. exists tp'. split; [exact ES|]. split; [lia|].
        intros j' Hj'. rewrite NS. destruct (Nat.eqb_spec j' j) as [->|NE]; [|apply NT; lia]. apply V2. left. left. repeat split; lia. }
      rewrite E3. cbn [bind].
      destruct (deriv_cpts_rows q kv temp3 dd 0 s1 m ltac:(lia) Lkv ltac:(lia) ltac:(unfold dd, dv; lia)) as (PK & E4 & L4 & _ & R4).
      { intros j i' Hj Hi'. apply Dv; unfold dd in *; lia. }
      rewrite E4. cbn [bind].
      destruct (for_up_inv (fun ll t => shp (fun k' l i' j => ((done0 (s1 + 1) k' l i' j \/ (doneall k' l i' j /\ (k' < k)%nat)) \/ (doneall k' l i' j /\ k' = k /\ (i' < i)%nat)) \/ (doneall k' l i' j /\ k' = k /\ i' = i /\ (l < ll)%nat)) t)
        (fun l PKL => for_up (s1 + 1 - l) 0 (fun j PKL => x <- (m <- get PK l ;; get m j) ;; set4 PKL k l i j x) PKL) dd 1 t2) as (t3 & E5 & F5).
      { eapply filled_sub; [|exact F2]. cbv beta. intros k' l i' j [H|((H1 & H2 & H3 & H4 & H5) & -> & -> & H)]; [exact H|]. left. left. unfold done0. lia. }
      { intros l t3 Hl1 Hl2 F5.
        destruct (for_up_inv (fun jj t => shp (fun k' l' i' j => (((done0 (s1 + 1) k' l' i' j \/ (doneall k' l' i' j /\ (k' < k)%nat)) \/ (doneall k' l' i' j /\ k' = k /\ (i' < i)%nat)) \/ (doneall k' l' i' j /\ k' = k /\ i' = i /\ (l' < l)%nat)) \/ (k' = k /\ l' = l /\ i' = i /\ (j < jj)%nat)) t)
          (fun j PKL => x <- (m <- get PK l ;; get m j) ;; set4 PKL k l i j x) (s1 + 1 - l) 0 t3) as (t4 & E6 & F6).
        { eapply filled_sub; [|exact F5]. cbv beta. intros k' l' i' j [H|(_ & _ & _ & H)]; [exact H|lia]. }
        { intros j t4 _ Hj F6. rewrite (get_ok PK l []) by lia. cbn [bind]. pose proof (R4 l ltac:(lia)) as RK. pose proof RK as (LRk & _). rewrite (get_ok _ j d4) by lia. cbn [bind].
          assert (nth j (nth l PK []) d4 = Gval k l i j) as ->.
          { rewrite (row_vec _ _ _ _ _ _ _ j RK) by lia. unfold Gval. apply vec4_by_c. intros c Hc. rewrite !dcp4_c by assumption. apply dcp_ext. intros x Hx. rewrite N3 by lia. unfold Gval. rewrite dcp4_c by assumption. reflexivity. }
          destruct (filled_set _ _ _ _ _ _ t4 k l i j F6) as (t5 & E7 & F7); try (unfold dd in *; lia). exists t5. split; [exact E7|]. eapply filled_sub; [|exact F7].
          cbv beta. intros k' l' i' j' [H|(-> & -> & -> & H)]; [left; left; exact H|]. destruct (Nat.eq_dec j' j) as [->|NE]; [right; auto|left; right; repeat split; lia]. }
        exists t4. split; [exact E6|]. eapply filled_sub; [|exact F6]. cbv beta. intros k' l' i' j [H|(DA & -> & -> & Hl)]; [left; left; exact H|].
        destruct (Nat.eq_dec l' l) as [->|NE]; [right|left; right; repeat split; try assumption; try lia; apply DA]. destruct DA as (_ & _ & _ & _ & DA). repeat split; lia. }
      rewrite E5. cbn [bind]. eexists. split; [reflexivity|]. cbn [fst snd]. split; [exact L3|]. eapply filled_sub; [|exact F5]. cbv beta.
      intros k' l i' j [H|(DA & -> & Hi')]; [left; left; exact H|]. destruct (Nat.eq_dec i' i) as [->|NE].
      * right. split; [exact DA|]. repeat split; try lia. destruct DA as (_ & _ & X1 & X2 & _). unfold dd. lia.
      * left. right. split; [exact DA|]. lia.
    + exists (t2, temp2). split; [exact E2|]. split; [exact L2|]. cbn [fst]. eapply filled_sub; [|exact F2]. cbv beta. intros k' l i j [H|(DA & Hk')]; [left; left; exact H|].
      destruct (Nat.eq_dec k' k) as [->|NE]; [|left; right; split; [exact DA|lia]]. right. split; [exact DA|]. split; [reflexivity|]. destruct DA as (_ & X & _). lia.
  - exists t', temp'. split; [exact E|]. eapply filled_sub; [|exact F]. cbn [fst]. intros k l i j H. right. split; [exact H|]. destruct H as (H & _). lia.
Qed.

Lemma surface_cpts_ok : exists PKL, surface_deriv_cpts p q ku kv cpts cs0 cs1 r0 r1 0 s1 order = Ok PKL /\ shape4 PKL (du + 1) (dv + 1) (r + 1) (s1 + 1) /\
  forall k l i j, doneall k l i j -> entry4 PKL k l i j = Gval k l i j.
Proof.
  unfold surface_deriv_cpts. fold du dv. rewrite (minus_ok r1 r0) by lia. cbn [bind]. rewrite (minus_ok s1 0) by lia. cbn [bind]. rewrite Nat.sub_0_r. fold r.
  destruct (first_loop (repeat (repeat (repeat (repeat v4zero (s1 + 1)) (r + 1)) (dv + 1)) (du + 1))) as (t1 & E1 & F1).
  { split; [apply shape4_repeat|]. intros k l i j []. }
  rewrite E1. cbn [bind]. destruct (second_loop t1 F1) as (t2 & tp & E2 & F2).
  match goal with |- context [for_up (du + 1) 0 ?f (t1, ?b)] => replace (for_up (du + 1) 0 f (t1, b)) with (Ok (t2, tp)) by (symmetry; exact E2) end. cbn [bind]. exists t2. split; [reflexivity|]. exact F2.
Qed.
End Surface.

(** ** meaning *)
Definition vals (c : vec4 -> Qc) (cpts : list (list vec4)) (i j : nat) : Qc := c (nth i (nth j cpts []) d4).

Lemma table_phi c p q n m ku kv cpts t k l u v : valid_knots n p ku -> valid_knots m q kv -> (k <= p)%nat -> (l <= q)%nat -> coordinate c ->
  in_domain n p ku u -> in_domain m q kv v ->
  (forall i j, (i <= n - k)%nat -> (j <= m - l)%nat -> entry4 t k l i j = Gval p q ku kv cpts 0 k l i j) ->
  table_surface c ku kv n m p q t k l u v = phi kv m q l (fun j => phi ku n p k (fun i => vals c cpts i j) u) v.
Proof.
  intros VU VV Hk Hl Hc DU DV E. unfold table_surface, surface_combination.
  rewrite <- (trimmed_phi m q l kv _ (fun j => qsum (fun i => basis_at (trimmed k ku) (n - k) (p - k) u i * c (entry4 t k l i j)) (S (n - k))) v VV Hl DV).
  - rewrite (qsum_ext _ (fun i => qsum (fun j => basis_at (trimmed k ku) (n - k) (p - k) u i * (basis_at (trimmed l kv) (m - l) (q - l) v j * c (entry4 t k l i j))) (S (m - l)))) by (intros; rewrite qsum_scale; reflexivity).
    rewrite qsum_swap. apply qsum_ext. intros j _. rewrite <- qsum_scale. apply qsum_ext. intros i _. ring.
  - intros j Hj.
    rewrite (qsum_ext _ (fun i => basis_at (trimmed k ku) (n - k) (p - k) u i * dcp (knot kv) q (fun j => dcp (knot ku) p (fun i => vals c cpts i j) k i) l j)).
    2:{ intros i Hi. f_equal. rewrite E by lia. unfold Gval. rewrite dcp4_c by assumption. apply dcp_ext. intros x _. rewrite dcp4_c by assumption. reflexivity. }
    rewrite <- (dcp_lin (knot kv) q (fun i => basis_at (trimmed k ku) (n - k) (p - k) u i) (fun i j => dcp (knot ku) p (fun i => vals c cpts i j) k i)).
    apply dcp_ext. intros x _. apply trimmed_phi; try assumption. reflexivity.
Qed.

Lemma phi_swap p q n m ku kv (f : nat -> nat -> Qc) k l u v :
  phi kv m q l (fun j => phi ku n p k (fun i => f i j) u) v = phi ku n p k (fun i => phi kv m q l (fun j => f i j) v) u.
Proof.
  unfold phi, dsum. rewrite (qsum_ext _ (fun j => qsum (fun i => bspd (knot kv) (sp m q kv v) l q j v * (bspd (knot ku) (sp n p ku u) k p i u * f i j)) (S n))) by (intros; rewrite qsum_scale; reflexivity).
  rewrite qsum_swap. apply qsum_ext. intros i _. rewrite <- qsum_scale. apply qsum_ext. intros j _. ring.
Qed.

Lemma phi_both U n p k f t : valid_knots n p U -> in_domain n p U t -> (t <= knot U p \/ knot U (n + 1) <= t \/ (multiplicity U t + k + 1 <= p)%nat) ->
  slope (phi U n p k f) (in_domain n p U) t (phi U n p (S k) f t).
Proof.
  intros V D H. eapply slope_union; [apply phi_right; eassumption|apply phi_left; eassumption|]. intros t' Dt'. destruct (Qclt_le_dec t' t) as [Lt|Lt]; [right|left]; (split; [exact Dt'|qc_lra]).
Qed.

Lemma surface_deriv_ok p q n m ku kv cpts order : valid_knots n p ku -> valid_knots m q kv ->
  length cpts = S m -> (forall row, In row cpts -> length row = S n) ->
  knot ku p < knot ku (p + 1) -> knot kv q < knot kv (q + 1) ->
  inner_multiplicity n p ku (p + 1 - Nat.min p order) -> inner_multiplicity m q kv (q + 1 - Nat.min q order) ->
  exists PKL, surface_deriv_cpts p q ku kv cpts (S n) (S m) 0 n 0 m order = Ok PKL /\
  (forall i j, (i <= n)%nat -> (j <= m)%nat -> entry4 PKL 0 0 i j = nth i (nth j cpts []) (V4 0 0 0 0)) /\
  (forall c k l u v, coordinate c -> in_domain n p ku u -> in_domain m q kv v -> (k < p)%nat -> (l <= q)%nat -> (k + l < order)%nat ->
    let f := fun x => table_surface c ku kv n m p q PKL k l x v in
    let s := table_surface c ku kv n m p q PKL (S k) l u v in
    has_slope f (fun x => in_domain n p ku x /\ u <= x) u s /\
    (u <= knot ku p \/ knot ku (n + 1) <= u \/ (multiplicity ku u + k + 1 <= p)%nat -> has_slope f (in_domain n p ku) u s)) /\
  (forall c k l u v, coordinate c -> in_domain n p ku u -> in_domain m q kv v -> (k <= p)%nat -> (l < q)%nat -> (k + l < order)%nat ->
    let f := fun y => table_surface c ku kv n m p q PKL k l u y in
    let s := table_surface c ku kv n m p q PKL k (S l) u v in
    has_slope f (fun y => in_domain m q kv y /\ v <= y) v s /\
    (v <= knot kv q \/ knot kv (m + 1) <= v \/ (multiplicity kv v + l + 1 <= q)%nat -> has_slope f (in_domain m q kv) v s)).
Proof.
  intros VU VV LC LR H1 H2 IU IV. pose proof VU as (Pu & Lu & _). pose proof VV as (Pv & Lv & _).
  destruct (surface_cpts_ok p q n m ku kv cpts (S n) (S m) 0 n m order Lu Lv ltac:(lia) LR eq_refl eq_refl ltac:(lia) ltac:(lia)) as (PKL & E & _ & H).
  { intros j i Hj Hi. apply (inner_denominators n p ku (Nat.min p order)); try assumption; lia. }
  { intros j i Hj Hi. apply (inner_denominators m q kv (Nat.min q order)); try assumption; lia. }
  exists PKL. split; [exact E|]. split; [|split].
  - intros i j Hi Hj. rewrite H by (unfold doneall; lia). apply vec4_by_c. intros c Hc. unfold Gval. rewrite dcp4_c by assumption. cbn [dcp]. rewrite dcp4_c by assumption. reflexivity.
  - assert (forall c k l x v, coordinate c -> in_domain n p ku x -> in_domain m q kv v -> (k <= p)%nat -> (l <= q)%nat -> (k + l <= order)%nat ->
      table_surface c ku kv n m p q PKL k l x v = phi ku n p k (fun i => phi kv m q l (fun j => vals c cpts i j) v) x) as T.
    { intros c k l x v Hc Dx Dv' Hk Hl Ho. rewrite <- phi_swap. apply table_phi; try assumption. intros i j Hi Hj. apply H. unfold doneall. lia. }
    intros c k l u v Hc DU DV Hk Hl Ho f s. unfold s. rewrite (T c (S k) l u v) by (assumption || lia). split.
    + apply (slope_ext (phi ku n p k (fun i => phi kv m q l (fun j => vals c cpts i j) v))); [|split; [assumption|apply Qcle_refl]|apply phi_right; assumption].
      intros x [Dx _]. symmetry. apply T; try assumption; lia.
    + intros C. apply (slope_ext (phi ku n p k (fun i => phi kv m q l (fun j => vals c cpts i j) v))); [|assumption|apply phi_both; assumption].
      intros x Dx. symmetry. apply T; try assumption; lia.
  - assert (forall c k l u y, coordinate c -> in_domain n p ku u -> in_domain m q kv y -> (k <= p)%nat -> (l <= q)%nat -> (k + l <= order)%nat ->
      table_surface c ku kv n m p q PKL k l u y = phi kv m q l (fun j => phi ku n p k (fun i => vals c cpts i j) u) y) as T.
    { intros c k l u y Hc Dx Dv' Hk Hl Ho. apply table_phi; try assumption. intros i j Hi Hj. apply H. unfold doneall. lia. }
    intros c k l u v Hc DU DV Hk Hl Ho f s. unfold s. rewrite (T c k (S l) u v) by (assumption || lia). split.
    + apply (slope_ext (phi kv m q l (fun j => phi ku n p k (fun i => vals c cpts i j) u))); [|split; [assumption|apply Qcle_refl]|apply phi_right; assumption].
      intros x [Dx _]. symmetry. apply T; try assumption; lia.
    + intros C. apply (slope_ext (phi kv m q l (fun j => phi ku n p k (fun i => vals c cpts i j) u))); [|assumption|apply phi_both; assumption].
      intros x Dx. symmetry. apply T; try assumption; lia.
Qed.

Lemma surface_deriv_part p q n m ku kv cpts order r0 r1 s1 : valid_knots n p ku -> valid_knots m q kv ->
  length cpts = S m -> (forall row, In row cpts -> length row = S n) ->
  knot ku p < knot ku (p + 1) -> knot kv q < knot kv (q + 1) ->
  inner_multiplicity n p ku (p + 1 - Nat.min p order) -> inner_multiplicity m q kv (q + 1 - Nat.min q order) ->
  (r0 <= r1 <= n)%nat -> (s1 <= m)%nat ->
  exists PKL PKL', surface_deriv_cpts p q ku kv cpts (S n) (S m) 0 n 0 m order = Ok PKL /\ surface_deriv_cpts p q ku kv cpts (S n) (S m) r0 r1 0 s1 order = Ok PKL' /\
  forall k l i j, (k <= p)%nat -> (l <= q)%nat -> (k + l <= order)%nat -> (i + k <= r1 - r0)%nat -> (j + l <= s1)%nat -> entry4 PKL' k l i j = entry4 PKL k l (r0 + i) j.
Proof.
  intros VU VV LC LR H1 H2 IU IV Hr Hs. pose proof VU as (Pu & Lu & _). pose proof VV as (Pv & Lv & _).
  destruct (surface_cpts_ok p q n m ku kv cpts (S n) (S m) 0 n m order Lu Lv ltac:(lia) LR eq_refl eq_refl ltac:(lia) ltac:(lia)) as (PKL & E & _ & H).
  { intros j i Hj Hi. apply (inner_denominators n p ku (Nat.min p order)); try assumption; lia. }
  { intros j i Hj Hi. apply (inner_denominators m q kv (Nat.min q order)); try assumption; lia. }
  destruct (surface_cpts_ok p q n m ku kv cpts (S n) (S m) r0 r1 s1 order Lu Lv ltac:(lia) LR eq_refl eq_refl ltac:(lia) ltac:(lia)) as (PKL' & E' & _ & H').
  { intros j i Hj Hi. apply (inner_denominators n p ku (Nat.min p order)); try assumption; lia. }
  { intros j i Hj Hi. apply (inner_denominators m q kv (Nat.min q order)); try assumption; lia. }
  exists PKL, PKL'. split; [exact E|]. split; [exact E'|]. intros k l i j Hk Hl Ho Hi Hj. rewrite H' by (unfold doneall; lia). rewrite H by (unfold doneall; lia).
  unfold Gval. replace (0 + (r0 + i))%nat with (r0 + i)%nat by lia. reflexivity.
Qed.
