(** Proofs about derivatives of quotients of surfaces. *)
From Coq Require Import List ZArith QArith Qcanon Bool Lia Lqa Field.
From Verif Require Import Base BaseFacts LoopFacts ModelVec ModelNurbs ModelSurface ModelBinom ModelRefine SpecNurbs SpecRefine
  ProofBspline ProofNurbs ProofInsertCurve ProofIntegrate.
Import ListNotations.
Open Scope Qc_scope.

Notation ch := SpecRefine.choose.
Lemma choose_nat n : forall k, ProofIntegrate.choose n k = Z.of_nat (ch n k).
Proof. induction n as [|n IH]; intros [|k]; try reflexivity. cbn [ProofIntegrate.choose SpecRefine.choose]. rewrite !IH. lia. Qed.
Lemma binc_ok n k : (n <= 30)%nat -> (k <= 30)%nat -> binc n k = Ok (Qc_of_nat (ch n k)).
Proof. intros Hn Hk. unfold binc. rewrite binomial_tab by assumption. rewrite tab_choose by assumption. rewrite choose_nat. reflexivity. Qed.
Lemma choose_0 n : ch n 0 = 1%nat. Proof. destruct n; reflexivity. Qed.

(** sums in three coordinates *)
Lemma acc3 (X Y Z : nat -> Qc) body n v : (forall i v, (1 <= i <= n)%nat -> body i v = Ok (V3 (vx v + X i) (vy v + Y i) (vz v + Z i))) ->
  for_up n 1 body v = Ok (V3 (vx v + qsum (fun i => X (S i)) n) (vy v + qsum (fun i => Y (S i)) n) (vz v + qsum (fun i => Z (S i)) n)).
Proof.
  intros H. destruct (for_up_inv (fun i (s : vec3) => s = V3 (vx v + qsum (fun i => X (S i)) (i - 1)) (vy v + qsum (fun i => Y (S i)) (i - 1)) (vz v + qsum (fun i => Z (S i)) (i - 1))) body n 1 v) as (s & E & F).
  - cbn. destruct v. cbn. f_equal; ring.
  - intros i s Hi1 Hi2 ->. rewrite H by lia. eexists. split; [reflexivity|]. cbn [vx vy vz]. replace (S i - 1)%nat with (S (i - 1)) by lia. cbn [qsum]. replace (S (i - 1)) with i by lia. f_equal; ring.
  - rewrite E. f_equal. rewrite F. replace (1 + n - 1)%nat with n by lia. reflexivity.
Qed.

Definition shape2 (t : list (list vec4)) (n : nat) : Prop := (n <= length t)%nat /\ forall k, (k < n)%nat -> (n <= length (nth k t []))%nat.
Lemma at2_ok t n k l : shape2 t n -> (k < n)%nat -> (l < n)%nat -> at2 t k l = Ok (entry2 t k l).
Proof.
  intros (A & B) Hk Hl. specialize (B k Hk). unfold at2, entry2. rewrite (get_ok t k []) by lia. cbn [bind]. apply get_ok. lia.
Qed.
Lemma set2_ok t n k l x : shape2 t n -> (k < n)%nat -> (l < n)%nat ->
  exists t', set2 t k l x = Ok t' /\ shape2 t' n /\ length t' = length t /\ (forall k', length (nth k' t' []) = length (nth k' t [])) /\ entry2 t' k l = x /\ forall k' l', (k', l') <> (k, l) -> entry2 t' k' l' = entry2 t k' l'.
Proof.
  intros (A & B) Hk Hl. pose proof (B k Hk) as L. unfold set2. rewrite (get_ok t k []) by lia. cbn [bind].
  destruct (set_nth_ok (nth k t []) l x) as (r & E1 & L1 & N1); [lia|]. rewrite E1. cbn [bind].
  destruct (set_nth_ok t k r) as (t' & E2 & L2 & N2); [lia|]. exists t'. split; [exact E2|].
  assert (forall k', length (nth k' t' []) = length (nth k' t [])) as LL by (intros k'; rewrite N2; destruct (Nat.eqb_spec k' k) as [->|]; [exact L1|reflexivity]).
  split; [|split; [exact L2|split; [exact LL|split]]].
  - split; [lia|]. intros k' Hk'. rewrite LL. apply B. assumption.
  - unfold entry2. rewrite N2, Nat.eqb_refl, N1, Nat.eqb_refl. reflexivity.
  - intros k' l' NE. unfold entry2. rewrite N2. destruct (Nat.eqb_spec k' k) as [->|]; [|reflexivity]. rewrite N1. destruct (Nat.eqb_spec l' l) as [->|]; [congruence|reflexivity].
Qed.

Definition rhs (c : vec4 -> Qc) (W S : list (list vec4)) (k l : nat) : Qc :=
  c (entry2 W k l) + qsum (fun j => - (Qc_of_nat (ch l (Datatypes.S j)) * ww (entry2 W 0 (Datatypes.S j))) * c (entry2 S k (l - Datatypes.S j))) l
  + qsum (fun i => - (Qc_of_nat (ch k (Datatypes.S i)) * ww (entry2 W (Datatypes.S i) 0)) * c (entry2 S (k - Datatypes.S i) l)
      - Qc_of_nat (ch k (Datatypes.S i)) * qsum (fun j => Qc_of_nat (ch l (Datatypes.S j)) * ww (entry2 W (Datatypes.S i) (Datatypes.S j)) * c (entry2 S (k - Datatypes.S i) (l - Datatypes.S j))) l) k.

Lemma rat_entry_ok W S n k l : shape2 W n -> shape2 S n -> (n <= 31)%nat -> (k < n)%nat -> (l < n)%nat -> ww (entry2 W 0 0) <> 0 ->
  rat_entry W S k l = Ok (V4 (rhs wx W S k l / ww (entry2 W 0 0)) (rhs wy W S k l / ww (entry2 W 0 0)) (rhs wz W S k l / ww (entry2 W 0 0)) 0).
Proof.
  intros HW HS Hn Hk Hl NZ. unfold rat_entry. rewrite (at2_ok W n) by assumption. cbn [bind].
  set (g1 := fun (c : vec4 -> Qc) j => - (Qc_of_nat (ch l j) * ww (entry2 W 0 j)) * c (entry2 S k (l - j))).
  rewrite (acc3 (g1 wx) (g1 wy) (g1 wz)).
  2:{ intros j v Hj. rewrite binc_ok by lia. cbn [bind]. rewrite (at2_ok W n) by (assumption || lia). cbn [bind]. rewrite (at2_ok S n) by (assumption || lia). cbn [bind]. reflexivity. }
  cbn [bind].
  set (g2 := fun (c : vec4 -> Qc) i => - (Qc_of_nat (ch k i) * ww (entry2 W i 0)) * c (entry2 S (k - i) l)
      - Qc_of_nat (ch k i) * qsum (fun j => Qc_of_nat (ch l (Datatypes.S j)) * ww (entry2 W i (Datatypes.S j)) * c (entry2 S (k - i) (l - Datatypes.S j))) l).
  rewrite (acc3 (g2 wx) (g2 wy) (g2 wz)).
  2:{ intros i v Hi. rewrite binc_ok by lia. cbn [bind]. rewrite (at2_ok W n) by (assumption || lia). cbn [bind]. rewrite (at2_ok S n) by (assumption || lia). cbn [bind].
      set (g3 := fun (c : vec4 -> Qc) j => Qc_of_nat (ch l j) * ww (entry2 W i j) * c (entry2 S (k - i) (l - j))).
      rewrite (acc3 (g3 wx) (g3 wy) (g3 wz)).
      2:{ intros j v' Hj. rewrite binc_ok by lia. cbn [bind]. rewrite (at2_ok W n) by (assumption || lia). cbn [bind]. rewrite (at2_ok S n) by (assumption || lia). cbn [bind]. reflexivity. }
      cbn [bind]. unfold v3mac. cbn [vx vy vz]. unfold g2, g3. cbv beta. f_equal. f_equal; ring. }
  cbn [bind]. rewrite (at2_ok W n) by (assumption || lia). cbn [bind]. rewrite !qdiv_ok by assumption. cbn [bind]. reflexivity.
Qed.

Lemma rhs_leibniz c W S k l : ww (entry2 W 0 0) <> 0 -> c (entry2 S k l) = rhs c W S k l / ww (entry2 W 0 0) -> leibniz c W S k l.
Proof.
  intros NZ E. assert (ww (entry2 W 0 0) * c (entry2 S k l) = rhs c W S k l) as E2 by (rewrite E; field; exact NZ). clear E.
  unfold leibniz. rewrite qsum_shift. rewrite qsum_shift. rewrite !choose_0, !Nat.sub_0_r. change (Qc_of_nat 1) with 1.
  replace (1 * 1 * ww (entry2 W 0 0) * c (entry2 S k l)) with (rhs c W S k l) by (rewrite <- E2; ring). unfold rhs.
  rewrite (qsum_ext (fun j => - (Qc_of_nat (ch l (Datatypes.S j)) * ww (entry2 W 0 (Datatypes.S j))) * c (entry2 S k (l - Datatypes.S j)))
    (fun j => (- (1)) * (1 * Qc_of_nat (ch l (Datatypes.S j)) * ww (entry2 W 0 (Datatypes.S j)) * c (entry2 S k (l - Datatypes.S j))))) by (intros; ring).
  rewrite qsum_scale. set (X := qsum (fun j => 1 * _ * _ * _) l).
  rewrite (qsum_ext (fun i => qsum (fun j => Qc_of_nat (ch k (Datatypes.S i)) * Qc_of_nat (ch l j) * ww (entry2 W (Datatypes.S i) j) * c (entry2 S (k - Datatypes.S i) (l - j))) (Datatypes.S l))
    (fun i => (- (1)) * (- (Qc_of_nat (ch k (Datatypes.S i)) * ww (entry2 W (Datatypes.S i) 0)) * c (entry2 S (k - Datatypes.S i) l)
      - Qc_of_nat (ch k (Datatypes.S i)) * qsum (fun j => Qc_of_nat (ch l (Datatypes.S j)) * ww (entry2 W (Datatypes.S i) (Datatypes.S j)) * c (entry2 S (k - Datatypes.S i) (l - Datatypes.S j))) l))).
  2:{ intros i _. rewrite qsum_shift, choose_0, Nat.sub_0_r. change (Qc_of_nat 1) with 1. rewrite (qsum_ext _ (fun j => Qc_of_nat (ch k (Datatypes.S i)) * (Qc_of_nat (ch l (Datatypes.S j)) * ww (entry2 W (Datatypes.S i) (Datatypes.S j)) * c (entry2 S (k - Datatypes.S i) (l - Datatypes.S j))))) by (intros; ring).
      rewrite qsum_scale. ring. }
  rewrite qsum_scale. ring.
Qed.
Lemma leibniz_ext c W S S' k l : (forall a b, (a <= k)%nat -> (b <= l)%nat -> entry2 S' a b = entry2 S a b) -> leibniz c W S k l -> leibniz c W S' k l.
Proof.
  intros H L. unfold leibniz in *. rewrite <- L. apply qsum_ext. intros i Hi. apply qsum_ext. intros j Hj. rewrite H by lia. reflexivity.
Qed.
Lemma rhs_ext c W S S' k l : (forall a b, (a <= k)%nat -> (b <= l)%nat -> (a, b) <> (k, l) -> entry2 S' a b = entry2 S a b) -> rhs c W S' k l = rhs c W S k l.
Proof.
  intros H. unfold rhs. f_equal; [f_equal|].
  - apply qsum_ext. intros j Hj. rewrite H; [reflexivity|lia|lia|]. intros [= E]. lia.
  - apply qsum_ext. intros i Hi. rewrite H; [|lia|lia|intros [= E]; lia]. f_equal. f_equal. apply qsum_ext. intros j Hj. rewrite H; [reflexivity|lia|lia|]. intros [= E E']. lia.
Qed.

Definition lex (k l k' l' : nat) : Prop := (k < k')%nat \/ (k = k' /\ (l < l')%nat).
Definition RInv (W : list (list vec4)) (n k l : nat) (S : list (list vec4)) : Prop :=
  shape2 S n /\ length S = n /\ (forall k, (k < n)%nat -> length (nth k S []) = n) /\
  forall a b, (a < n)%nat -> (b < n)%nat -> lex a b k l -> ww (entry2 S a b) = 0 /\ forall c, coordinate3 c -> leibniz c W S a b.

Lemma rat_ok W order : (order <= 30)%nat -> (order < length W)%nat -> (forall k, (k <= order)%nat -> (order < length (nth k W []))%nat) -> ww (entry2 W 0 0) <> 0 ->
  exists S, rat_surface_derivs W order = Ok S /\ length S = (order + 1)%nat /\ (forall k, (k <= order)%nat -> length (nth k S []) = (order + 1)%nat) /\
    forall k l, (k <= order)%nat -> (l <= order)%nat -> ww (entry2 S k l) = 0 /\ forall c, coordinate3 c -> leibniz c W S k l.
Proof.
  intros Ho LW RW NZ. unfold rat_surface_derivs. set (n := (order + 1)%nat).
  assert (shape2 W n) as SW by (unfold n; split; [lia|intros k Hk; specialize (RW k); lia]).
  match goal with |- exists S, for_up _ _ ?B _ = _ /\ _ => set (body := B) end.
  destruct (for_up_inv (fun k S => RInv W n k 0 S) body n 0 (repeat (repeat v4zero n) n)) as (S & E & I1 & I2 & I3 & I4).
  - assert (forall k, (k < n)%nat -> nth k (repeat (repeat v4zero n) n) [] = repeat v4zero n) as NR by (intros k Hk; rewrite (nth_indep _ [] (repeat v4zero n)) by (rewrite repeat_length; lia); apply nth_repeat).
    split; [|split; [apply repeat_length|split]].
    + split; [rewrite repeat_length; lia|]. intros k Hk. rewrite NR by assumption. rewrite repeat_length. lia.
    + intros k Hk. rewrite NR by assumption. apply repeat_length.
    + intros a b _ _ [H|[_ H]]; lia.
  - intros k S _ Hk I. unfold body.
    destruct (for_up_inv (fun l S => RInv W n k l S) (fun l S => x <- rat_entry W S k l ;; set2 S k l x) n 0 S) as (S' & E & I1 & I2 & I3 & I4).
    + exact I.
    + intros l S1 _ Hl (J1 & J2 & J3 & J4). rewrite (rat_entry_ok W S1 n k l) by (assumption || (unfold n in *; lia)). cbn [bind].
      match goal with |- exists s', set2 _ _ _ ?x = _ /\ _ => set (e := x) end.
      destruct (set2_ok S1 n k l e J1 Hk Hl) as (S2 & E2 & K1 & K2 & K3 & K4 & K5). exists S2. split; [exact E2|]. split; [exact K1|]. split; [lia|].
      split; [intros k' Hk'; rewrite K3; apply J3; assumption|]. intros a b Ha Hb HL.
      destruct (Nat.eq_dec a k) as [->|NA]; [destruct (Nat.eq_dec b l) as [->|NB]|].
      * split; [rewrite K4; reflexivity|]. intros c Hc. apply rhs_leibniz; [exact NZ|]. rewrite K4. rewrite (rhs_ext c W S1 S2) by (intros; apply K5; assumption).
        unfold e. destruct Hc as [->|[->| ->]]; reflexivity.
      * destruct HL as [HL|[_ HL]]; [lia|]. destruct (J4 k b Ha Hb) as (W0 & L0); [right; lia|]. split; [rewrite K5 by congruence; exact W0|]. intros c Hc.
        apply (leibniz_ext c W S1); [|apply L0; assumption]. intros a' b' Ha' Hb'. apply K5. intros [= -> ->]. lia.
      * destruct HL as [HL|[-> HL]]; [|lia]. destruct (J4 a b Ha Hb) as (W0 & L0); [left; lia|]. split; [rewrite K5 by congruence; exact W0|]. intros c Hc.
        apply (leibniz_ext c W S1); [|apply L0; assumption]. intros a' b' Ha' Hb'. apply K5. intros [= -> ->]. lia.
    + exists S'. split; [exact E|]. split; [exact I1|]. split; [exact I2|]. split; [exact I3|]. intros a b Ha Hb HL. apply I4; try assumption. destruct HL as [HL|[_ HL]]; [|lia].
      destruct (Nat.eq_dec a k) as [->|]; [right; lia|left; lia].
  - exists S. split; [exact E|]. split; [exact I2|]. split; [intros k Hk; apply I3; unfold n; lia|]. intros k l Hk Hl. apply I4; [unfold n; lia..|left; unfold n; lia].
Qed.
