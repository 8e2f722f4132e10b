(** quickhull: removing the unused facets keeps the used ones. *)
From Coq Require Import List Arith Bool ZArith Reals Lra Lia Permutation.
From Verif Require Import Base LoopFacts ModelPlane ModelQuickhull SpecQuickhull ProofQhGeo ProofQhMesh ProofQhRidge ProofQhWalk ProofQhStep.
Import ListNotations.
Local Open Scope nat_scope.

Fixpoint desc (l : list nat) : Prop := match l with [] => True | k :: r => (forall j, In j r -> j < k) /\ desc r end.
Lemma insert_desc_in k l j : In j (insert_desc k l) <-> j = k \/ In j l.
Proof.
  assert (k = j <-> j = k) as Y by (split; intros; auto). induction l as [|i l IH]; cbn [insert_desc In]; [tauto|]. destruct (Nat.ltb i k); cbn [In]; [tauto|]. rewrite IH. tauto.
Qed.
Lemma insert_desc_desc k l : ~ In k l -> desc l -> desc (insert_desc k l).
Proof.
  induction l as [|i l IH]; intros N D; cbn [insert_desc]; [split; [intros j []|exact D]|]. destruct (Nat.ltb_spec i k) as [X|X].
  - split; [|exact D]. intros j [<-|J]; [exact X|]. destruct D as [D _]. specialize (D j J). lia.
  - destruct D as [D1 D2]. split.
    + intros j J. apply insert_desc_in in J as [->|J]; [|exact (D1 j J)]. assert (k <> i) by (intros ->; apply N; left; reflexivity). lia.
    + apply IH; [intros J; apply N; right; exact J|exact D2].
Qed.
Lemma sort_desc_in l j : In j (sort_desc l) <-> In j l.
Proof. unfold sort_desc. induction l as [|i l IH]; cbn; [tauto|]. rewrite insert_desc_in, IH. assert (i = j <-> j = i) by (split; intros; auto). tauto. Qed.
Lemma sort_desc_desc l : NoDup l -> desc (sort_desc l).
Proof.
  induction 1 as [|i l N ND IH]; [exact I|]. cbn. apply insert_desc_desc; [|exact IH]. intros J. apply N. apply sort_desc_in. exact J.
Qed.
Lemma replace_first_at s k t v : (forall x y, tget x t = tget y t -> x = y) -> tget v (replace_first s k t) = if Nat.eqb (tget v t) s then k else tget v t.
Proof.
  intros J. unfold replace_first. destruct (Nat.eqb_spec (t0 t) s) as [E0|E0]; [|destruct (Nat.eqb_spec (t1 t) s) as [E1|E1]; [|destruct (Nat.eqb_spec (t2 t) s) as [E2|E2]]].
  - destruct v; cbn; [rewrite E0, Nat.eqb_refl; reflexivity|destruct (Nat.eqb_spec (t1 t) s) as [X|X]|destruct (Nat.eqb_spec (t2 t) s) as [X|X]]; try reflexivity; exfalso; [discriminate (J I1 I0 (eq_trans X (eq_sym E0)))|discriminate (J I2 I0 (eq_trans X (eq_sym E0)))].
  - destruct v; cbn; [destruct (Nat.eqb_spec (t0 t) s) as [X|X]; [contradiction|reflexivity]|rewrite E1, Nat.eqb_refl; reflexivity|destruct (Nat.eqb_spec (t2 t) s) as [X|X]]; try reflexivity; exfalso; discriminate (J I2 I1 (eq_trans X (eq_sym E1))).
  - destruct v; cbn; [destruct (Nat.eqb_spec (t0 t) s) as [X|X]; [contradiction|reflexivity]|destruct (Nat.eqb_spec (t1 t) s) as [X|X]; [contradiction|reflexivity]|rewrite E2, Nat.eqb_refl; reflexivity].
  - destruct v; cbn; [destruct (Nat.eqb_spec (t0 t) s)|destruct (Nat.eqb_spec (t1 t) s)|destruct (Nat.eqb_spec (t2 t) s)]; try contradiction; reflexivity.
Qed.

Definition live (dead : list nat) (fs : list facet) (x : nat) : Prop := x < length fs /\ ~ In x dead.
Record linked (dead : list nat) (fs : list facet) : Prop := {
  l_nbr : forall x v, live dead fs x -> let y := nbf fs x v in live dead fs y /\ y <> x /\ exists w, nbf fs y w = x;
  l_inj : forall x v w, live dead fs x -> nbf fs x v = nbf fs x w -> v = w }.
Lemma move_down_ok source k : source <> k -> forall ns fs, NoDup ns -> (forall x, In x ns -> x < length fs) ->
  exists fs', move_down fs source k ns = Ok fs' /\ length fs' = length fs /\
    forall j, fat fs' j = if existsb (Nat.eqb j) ns then with_nbr (fat fs j) (replace_first source k (fnbr (fat fs j))) else fat fs j.
Proof.
  intros NE. induction ns as [|x ns IH]; intros fs ND B; cbn [move_down]; [exists fs; auto|]. inversion ND as [|? ? NI ND']; subst.
  unfold replace_neighbour. destruct (Nat.eqb_spec source k) as [X|_]; [contradiction|]. rewrite get_fat by (apply B; left; reflexivity). cbn [bind].
  destruct (fat_set_nth fs x (with_nbr (fat fs x) (replace_first source k (fnbr (fat fs x))))) as (fs1 & -> & L1 & F1); [apply B; left; reflexivity|]. cbn [bind].
  destruct (IH fs1 ND') as (fs' & E & L' & F'); [intros y Y; rewrite L1; apply B; right; exact Y|]. exists fs'. split; [exact E|]. split; [congruence|]. intros j. rewrite F'. cbn [existsb]. rewrite F1.
  destruct (Nat.eqb_spec j x) as [->|Nj]; cbn [orb]; [|reflexivity].
  assert (existsb (Nat.eqb x) ns = false) as ->; [|reflexivity]. destruct (existsb (Nat.eqb x) ns) eqn:X; [|reflexivity]. apply existsb_exists in X as (y & Iy & Ey). apply Nat.eqb_eq in Ey. subst y. contradiction.
Qed.
Lemma fat_firstn fs m j : j < m -> fat (firstn m fs) j = fat fs j.
Proof. intros B. unfold fat. apply nth_firstn_lt. exact B. Qed.

Lemma compactify_ok : forall ks fs, desc ks -> (forall k, In k ks -> k < length fs) -> linked ks fs ->
  exists fs', compactify ks fs = Ok fs' /\ forall t, (exists k, k < length fs' /\ fvert (fat fs' k) = t) <-> (exists k, live ks fs k /\ fvert (fat fs k) = t).
Proof.
  induction ks as [|k ks IH]; intros fs D B LK; cbn [compactify].
  - exists fs. split; [reflexivity|]. intros t. unfold live. split; intros (x & A & C); exists x; cbn in *; tauto.
  - destruct D as [D1 D2]. pose proof (B k (or_introl eq_refl)) as Bk. set (source := length fs - 1). assert (length fs = S source) as LS by (unfold source; lia).
    destruct (Nat.eqb_spec k source) as [Ek|Nk].
    + (* the last one is unused *)
      assert (length (firstn source fs) = source) as LF by (rewrite firstn_length; lia).
      assert (forall x, live ks (firstn source fs) x <-> live (k :: ks) fs x) as LV.
      { intros x. unfold live. rewrite LF, LS. cbn [In]. split; [intros [A1 A2]; split; [lia|intros [X|X]; [lia|contradiction]]|intros [A1 A2]; split; [|tauto]]. assert (x <> k) by (intros ->; tauto). lia. }
      assert (forall x, live (k :: ks) fs x -> x < source) as LT by (intros x X; apply LV in X as [X _]; lia).
      destruct (IH (firstn source fs) D2) as (fs' & E & H).
      * intros j J. rewrite LF. specialize (D1 j J). lia.
      * destruct LK as [LN LI]. split.
        -- intros x v X. apply LV in X. unfold nbf. rewrite fat_firstn by exact (LT x X). destruct (LN x v X) as (Y1 & Y2 & w & Y3). split; [apply LV; exact Y1|]. split; [exact Y2|]. exists w. rewrite fat_firstn by exact (LT _ Y1). exact Y3.
        -- intros x v w X. apply LV in X. unfold nbf. rewrite fat_firstn by exact (LT x X). exact (LI x v w X).
      * exists fs'. split; [exact E|]. intros t. rewrite H. split; intros (x & X & V); exists x; (split; [apply LV; exact X|]); [rewrite fat_firstn in V|rewrite fat_firstn]; auto. apply LT, LV, X.
    + (* the last one moves to k *)
      assert (live (k :: ks) fs source) as Ls by (split; [lia|]; intros [X|X]; [auto|specialize (D1 _ X); lia]).
      destruct LK as [LN LI]. rewrite get_fat by lia. cbn [bind]. set (b := fat fs source).
      destruct (fat_set_nth fs k b Bk) as (fs1 & -> & L1 & F1). cbn [bind].
      pose proof (LN source I0 Ls) as (A0 & A0' & _). pose proof (LN source I1 Ls) as (A1 & A1' & _). pose proof (LN source I2 Ls) as (A2 & A2' & _).
      unfold nbf in A0, A0', A1, A1', A2, A2'. fold b in A0, A0', A1, A1', A2, A2'. cbn [tget] in *.
      assert (forall v w, tget v (fnbr b) = tget w (fnbr b) -> v = w) as Jb by (intros v w; exact (LI source v w Ls)).
      destruct (move_down_ok source k (fun X => Nk (eq_sym X)) [t0 (fnbr b); t1 (fnbr b); t2 (fnbr b)] fs1) as (fs2 & -> & L2 & F2).
      { repeat constructor; cbn; [intros [X|[X|[]]]|intros [X|[]]|tauto]; [discriminate (Jb I1 I0 X)|discriminate (Jb I2 I0 X)|discriminate (Jb I2 I1 X)]. }
      { intros x [<-|[<-|[<-|[]]]]; rewrite L1; [apply A0|apply A1|apply A2]. }
      cbn [bind]. set (fs3 := firstn source fs2).
      assert (length fs3 = source) as L3 by (unfold fs3; rewrite firstn_length; lia).
      assert (forall x, existsb (Nat.eqb x) [t0 (fnbr b); t1 (fnbr b); t2 (fnbr b)] = true <-> exists v, nbf fs source v = x) as EX.
      { intros x. rewrite existsb_exists. unfold nbf. fold b. split.
        - intros (y & [<-|[<-|[<-|[]]]] & E); apply Nat.eqb_eq in E; [exists I0|exists I1|exists I2]; cbn; auto.
        - intros ([] & <-); cbn [tget]; eexists; (split; [|apply Nat.eqb_refl]); cbn; auto. }
      set (old := fun x => if Nat.eqb x k then source else x). set (new := fun y => if Nat.eqb y source then k else y).
      assert (forall x, live ks fs3 x -> live (k :: ks) fs (old x)) as LO.
      { intros x [X1 X2]. rewrite L3 in X1. unfold old. destruct (Nat.eqb_spec x k) as [->|N]; [exact Ls|]. split; [lia|]. intros [X|X]; [auto|contradiction]. }
      assert (forall y, live (k :: ks) fs y -> live ks fs3 (new y)) as LN'.
      { intros y [Y1 Y2]. unfold new. destruct (Nat.eqb_spec y source) as [->|N]; (split; [rewrite L3; lia|]); [intros X; specialize (D1 _ X); lia|intros X; apply Y2; right; exact X]. }
      assert (forall x, live ks fs3 x -> new (old x) = x) as NO.
      { intros x [X1 X2]. rewrite L3 in X1. unfold new, old. destruct (Nat.eqb_spec x k) as [->|N]; [rewrite Nat.eqb_refl; reflexivity|]. destruct (Nat.eqb_spec x source); [lia|reflexivity]. }
      assert (forall y, live (k :: ks) fs y -> old (new y) = y) as ON.
      { intros y [Y1 Y2]. unfold new, old. destruct (Nat.eqb_spec y source) as [->|N]; [rewrite Nat.eqb_refl; reflexivity|]. destruct (Nat.eqb_spec y k) as [->|]; [exfalso; apply Y2; left; reflexivity|reflexivity]. }
      assert (forall x, live ks fs3 x -> fvert (fat fs3 x) = fvert (fat fs (old x)) /\ forall v, nbf fs3 x v = new (nbf fs (old x) v)) as NEW.
      { intros x X. pose proof (LO x X) as XO. destruct X as [X1 X2]. rewrite L3 in X1. unfold nbf, fs3. rewrite fat_firstn by exact X1. rewrite F2, F1. revert XO. unfold old. destruct (Nat.eqb_spec x k) as [->|N]; intros XO.
        - assert (existsb (Nat.eqb k) [t0 (fnbr b); t1 (fnbr b); t2 (fnbr b)] = false) as ->.
          { destruct (existsb _ _) eqn:Q; [|reflexivity]. apply EX in Q as (v & Q). destruct (LN source v Ls) as ([_ Y] & _). rewrite Q in Y. exfalso. apply Y. left. reflexivity. }
          fold b. split; [reflexivity|]. intros v. unfold new. destruct (LN source v Ls) as (_ & Y & _). unfold nbf in Y. fold b in Y. destruct (Nat.eqb_spec (tget v (fnbr b)) source); [contradiction|reflexivity].
        - destruct (existsb (Nat.eqb x) _) eqn:Q.
          + split; [reflexivity|]. intros v. cbn [with_nbr fnbr]. rewrite replace_first_at by (intros v0 w0; exact (LI x v0 w0 XO)). reflexivity.
          + split; [reflexivity|]. intros v. unfold new. destruct (Nat.eqb_spec (tget v (fnbr (fat fs x))) source) as [Y|]; [|reflexivity]. exfalso.
            destruct (LN x v XO) as (_ & _ & w & W). unfold nbf at 2 in W. rewrite Y in W. assert (existsb (Nat.eqb x) [t0 (fnbr b); t1 (fnbr b); t2 (fnbr b)] = true) as Z by (apply EX; exists w; exact W). congruence. }
      destruct (IH fs3 D2) as (fs' & E & H).
      * intros j J. rewrite L3. specialize (D1 j J). lia.
      * split.
        -- intros x v X. cbn zeta. destruct (NEW x X) as [_ XN]. rewrite XN. destruct (LN (old x) v (LO x X)) as (Y1 & Y2 & w & Y3). split; [exact (LN' _ Y1)|]. split; [intros Y; apply Y2; rewrite <- (ON _ Y1) at 1; f_equal; exact Y|].
           exists w. destruct (NEW _ (LN' _ Y1)) as [_ ZN]. rewrite ZN, ON by exact Y1. rewrite Y3. exact (NO x X).
        -- intros x v w X. destruct (NEW x X) as [_ XN]. rewrite !XN. intros Y. apply (LI (old x) v w (LO x X)).
           rewrite <- (ON (nbf fs (old x) v)), <- (ON (nbf fs (old x) w)), Y by (apply LN, LO, X). reflexivity.
      * exists fs'. split; [exact E|]. intros t. rewrite H. split; intros (x & X & V).
        -- exists (old x). split; [exact (LO x X)|]. rewrite <- (proj1 (NEW x X)). exact V.
        -- exists (new x). split; [exact (LN' x X)|]. rewrite (proj1 (NEW _ (LN' x X))), ON by exact X. exact V.
Qed.
