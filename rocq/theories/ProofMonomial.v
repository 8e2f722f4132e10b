(** Conversion between Bezier and monomial form. *)
From Coq Require Import List ZArith QArith Qcanon Bool Lia Lqa Field.
From Verif Require Import Base BaseFacts LoopFacts ModelVec ModelAabb ModelNurbs ModelSurface ModelBinom ModelNumeric ModelMonomial
  SpecNurbs SpecSurface SpecNumeric SpecMonomial ProofBspline ProofCurve ProofSurface ProofSurfaceTop ProofIntegrate ProofMinimize ProofMatrix ProofBpmat.
Import ListNotations.
Open Scope Qc_scope.

(** ** binomials *)
Lemma pascal_choose : forall n k, pascal n k = choose n k.
Proof. induction n; intros [|k]; try reflexivity. cbn [pascal choose]. rewrite !IHn. reflexivity. Qed.
Lemma pascal_gt : forall n k, (n < k)%nat -> pascal n k = 0%Z.
Proof. induction n; intros [|k] H; try lia; [reflexivity|]. cbn [pascal]. rewrite !IHn by lia. reflexivity. Qed.
Lemma pascal_nn : forall n, pascal n n = 1%Z.
Proof. induction n; [reflexivity|]. cbn [pascal]. rewrite IHn, (pascal_gt n (S n)) by lia. reflexivity. Qed.
Lemma pascal_n0 n : pascal n 0 = 1%Z. Proof. destruct n; reflexivity. Qed.
Lemma pascal_SS n k : pascal (S n) (S k) = (pascal n k + pascal n (S k))%Z. Proof. reflexivity. Qed.
Lemma pascal_absorb : forall n k, (Z.of_nat (S k) * pascal (S n) (S k) = Z.of_nat (S n) * pascal n k)%Z.
Proof.
  induction n; intros k.
  - destruct k; [reflexivity|]. cbn [pascal]. lia.
  - rewrite (pascal_SS (S n) k). destruct k.
    + rewrite pascal_n0. pose proof (IHn 0%nat) as H. rewrite pascal_n0 in H. lia.
    + pose proof (IHn k) as H1. pose proof (IHn (S k)) as H2. rewrite (pascal_SS n k) in *. nia.
Qed.
(** C(n,j) C(j,k) = C(n,k) C(n-k,j-k) *)
Lemma pascal_trinomial : forall k n j, (k <= j <= n)%nat -> (pascal n j * pascal j k = pascal n k * pascal (n - k) (j - k))%Z.
Proof.
  induction k; intros n j H.
  - rewrite !pascal_n0, !Nat.sub_0_r. lia.
  - destruct j; [lia|]. destruct n; [lia|]. cbn [Nat.sub].
    pose proof (pascal_absorb n j) as A1. pose proof (pascal_absorb j k) as A2. pose proof (pascal_absorb n k) as A3.
    pose proof (IHk n j ltac:(lia)) as I.
    assert (Z.of_nat (S j) * Z.of_nat (S k) * (pascal (S n) (S j) * pascal (S j) (S k)) = Z.of_nat (S j) * Z.of_nat (S k) * (pascal (S n) (S k) * pascal (n - k) (j - k)))%Z as E.
    { replace (Z.of_nat (S j) * Z.of_nat (S k) * (pascal (S n) (S j) * pascal (S j) (S k)))%Z
        with ((Z.of_nat (S j) * pascal (S n) (S j)) * (Z.of_nat (S k) * pascal (S j) (S k)))%Z by ring.
      replace (Z.of_nat (S j) * Z.of_nat (S k) * (pascal (S n) (S k) * pascal (n - k) (j - k)))%Z
        with (Z.of_nat (S j) * (Z.of_nat (S k) * pascal (S n) (S k)) * pascal (n - k) (j - k))%Z by ring.
      rewrite A1, A2, A3. 
      transitivity (Z.of_nat (S n) * Z.of_nat (S j) * (pascal n j * pascal j k))%Z; [ring|]. rewrite I. ring. }
    apply Z.mul_reg_l in E; [exact E|]. nia.
Qed.

Lemma Qc_of_Z_add a b : Qc_of_Z (a + b) = Qc_of_Z a + Qc_of_Z b.
Proof. apply Qc_is_canon. rewrite this_plus, !this_of_Z, inject_Z_plus. reflexivity. Qed.
Lemma Qc_of_Z_mul a b : Qc_of_Z (a * b) = Qc_of_Z a * Qc_of_Z b.
Proof. apply Qc_is_canon. rewrite this_mult, !this_of_Z, inject_Z_mult. reflexivity. Qed.

Definition sgn (k : nat) : Qc := if Nat.even k then 1 else - (1).
Lemma sgn_S k : sgn (S k) = - sgn k.
Proof. unfold sgn. rewrite Nat.even_succ, <- Nat.negb_even. destruct (Nat.even k); cbn; ring. Qed.

(** (1 - u)^n expanded *)
Lemma binomial_theorem : forall n u, qpow (1 - u) n = qsum (fun k => sgn k * Qc_of_Z (pascal n k) * qpow u k) (S n).
Proof.
  induction n; intros u.
  - cbn. unfold sgn. cbn. replace (Qc_of_Z 1) with 1 by reflexivity. ring.
  - cbn [qpow]. rewrite IHn.
    rewrite (qsum_shift _ (S n)).
    rewrite (qsum_ext (fun i => sgn (S i) * Qc_of_Z (pascal (S n) (S i)) * qpow u (S i))
      (fun i => (- u) * (sgn i * Qc_of_Z (pascal n i) * qpow u i) + sgn (S i) * Qc_of_Z (pascal n (S i)) * qpow u (S i))).
    2:{ intros i _. rewrite pascal_SS, Qc_of_Z_add, sgn_S. cbn [qpow]. ring. }
    rewrite qsum_add, qsum_scale.
    assert (qsum (fun i => sgn (S i) * Qc_of_Z (pascal n (S i)) * qpow u (S i)) (S n) = qsum (fun k => sgn k * Qc_of_Z (pascal n k) * qpow u k) (S n) - 1) as ->.
    { rewrite (qsum_shift (fun k => sgn k * Qc_of_Z (pascal n k) * qpow u k) n). cbn [qsum]. rewrite (pascal_gt n (S n)) by lia. rewrite pascal_n0. replace (sgn 0) with 1 by reflexivity. cbn [qpow].
      replace (Qc_of_Z 0) with 0 by reflexivity. replace (Qc_of_Z 1) with 1 by reflexivity. ring. }
    rewrite (pascal_n0 (S n)). replace (sgn 0) with 1 by reflexivity. cbn [qpow]. replace (Qc_of_Z 1) with 1 by reflexivity. ring.
Qed.
Lemma qpow_add u a b : qpow u (a + b) = qpow u a * qpow u b.
Proof. induction a; cbn [qpow Nat.add]; [ring|]. rewrite IHa. ring. Qed.

(** entries of bpmat(n) *)
Definition bp (n j k : nat) : Qc := if Nat.leb k j then sgn (j - k) * Qc_of_Z (pascal n j) * Qc_of_Z (pascal j k) else 0.
Lemma bp_bernstein n k u : (k <= n)%nat -> qsum (fun j => bp n j k * qpow u j) (S n) = bernstein n k u.
Proof.
  intros H. replace (S n) with (k + S (n - k))%nat by lia. rewrite qsum_split.
  rewrite (qsum_zero _ k). 2:{ intros i Hi. unfold bp. destruct (Nat.leb_spec k i); [lia|]. ring. }
  unfold bernstein. rewrite binomial_theorem. rewrite <- qsum_scale, Qcplus_0_l. apply qsum_ext. intros i Hi.
  unfold bp. destruct (Nat.leb_spec k (k + i)); [|lia]. replace (k + i - k)%nat with i by lia.
  rewrite <- (Qcmult_assoc (sgn i)), <- Qc_of_Z_mul, pascal_trinomial by lia. replace (k + i - k)%nat with i by lia. rewrite Qc_of_Z_mul, qpow_add. ring.
Qed.

Lemma bpmat_rep n : (n <= 30)%nat -> exists m, bpmat (Z.of_nat n) = Ok m /\ rep m (S n) (S n) (bp n).
Proof.
  intros Hn. unfold bpmat. destruct (Z.ltb_spec (Z.of_nat n) (-1)); [lia|]. replace (Z.to_nat (Z.of_nat n + 1)) with (S n) by lia.
  destruct (for_up_inv (fun j m => rep m (S n) (S n) (fun a b => if Nat.ltb a j then bp n a b else 0))
    (fun j r => for_up (j + 1) 0 (fun k r => bpmat_cell (Z.of_nat n) j k r) r) (S n) 0 (md_zero (S n) (S n))) as (m & E & R).
  - eapply rep_ext; [|apply rep_zero]. upds.
  - intros j m _ Hj Hm.
    destruct (row_loop (fun k r => bpmat_cell (Z.of_nat n) j k r) (S n) (S n) (fun a b => if Nat.ltb a j then bp n a b else 0) (bp n j) j (j + 1) m) as (m' & E & R); try lia; try assumption.
    + intros k m1 Hk Hm1. unfold bpmat_cell. rewrite !binomial_tab by lia. cbn [bind]. rewrite !tab_choose by lia. rewrite <- !pascal_choose.
      destruct (rep_set _ _ _ _ j k (bp n j k) Hm1) as (m2 & E & R); [lia|lia|]. exists m2. split; [|exact R].
      rewrite <- E. f_equal. unfold bp, sgn. destruct (Nat.leb_spec k j); [reflexivity|lia].
    + exists m'. split; [exact E|]. revert R. apply rep_ext. intros a b Ha Hb. upds.
      unfold bp. destruct (Nat.leb_spec b j); [lia|reflexivity].
  - exists m. split; [exact E|]. revert R. apply rep_ext. upds.
Qed.

(** every pivot is large: row x of the matrix evaluates polynomials at x in the
    basis (-1)^k C(x, k), so a reduced row is an interpolation error *)
Definition bk (k x : nat) : Qc := sgn k * Qc_of_Z (pascal x k).
Lemma pascal_next x k : (Z.of_nat (S k) * pascal x (S k) = (Z.of_nat x - Z.of_nat k) * pascal x k)%Z.
Proof.
  destruct (Nat.lt_ge_cases x k) as [L|L]; [rewrite !pascal_gt by lia; ring|]. destruct x as [|x].
  - assert (k = 0)%nat by lia. subst. reflexivity.
  - pose proof (pascal_absorb x k) as A. destruct k as [|k].
    + rewrite A, !pascal_n0. lia.
    + rewrite A. pose proof (pascal_absorb x k) as B. pose proof (pascal_SS x k) as C.
      assert (Z.of_nat (S k) * ((Z.of_nat (S x) - Z.of_nat (S k)) * pascal (S x) (S k)) = (Z.of_nat (S x) - Z.of_nat (S k)) * (Z.of_nat (S x) * pascal x k))%Z as D by (rewrite <- B; ring).
      apply (Z.mul_reg_l _ _ (Z.of_nat (S k))); [lia|]. rewrite D.
      replace (pascal x (S k)) with (pascal (S x) (S k) - pascal x k)%Z by lia.
      transitivity (Z.of_nat (S x) * (Z.of_nat (S k) * pascal (S x) (S k) - Z.of_nat (S k) * pascal x k))%Z; [ring|rewrite B; ring].
Qed.
Lemma Qc_of_Z_opp a : Qc_of_Z (- a) = - Qc_of_Z a.
Proof. apply Qc_is_canon. rewrite this_opp, !this_of_Z, inject_Z_opp. reflexivity. Qed.
Lemma bk_next x k : - Qc_of_Z (Z.of_nat (S k)) * bk (S k) x = (Qc_of_Z (Z.of_nat x) - Qc_of_Z (Z.of_nat k)) * bk k x.
Proof.
  unfold bk. rewrite sgn_S. pose proof (pascal_next x k) as P. apply (f_equal Qc_of_Z) in P. rewrite !Qc_of_Z_mul in P.
  unfold Z.sub in P. rewrite Qc_of_Z_add, Qc_of_Z_opp in P.
  transitivity (sgn k * (Qc_of_Z (Z.of_nat (S k)) * Qc_of_Z (pascal x (S k)))); [ring|]. rewrite P. ring.
Qed.
(** coefficients of (x - rho 0) ... (x - rho (i-1)) *)
Fixpoint ncoef (rho : nat -> nat) (i k : nat) : Qc :=
  match i with
  | O => if Nat.eqb k 0 then 1 else 0
  | S i => match k with O => 0 | S k' => - Qc_of_Z (Z.of_nat k) * ncoef rho i k' end + (Qc_of_Z (Z.of_nat k) - Qc_of_Z (Z.of_nat (rho i))) * ncoef rho i k
  end.
Lemma ncoef_gt rho i : forall k, (i < k)%nat -> ncoef rho i k = 0.
Proof. induction i as [|i IH]; intros [|k] H; cbn [ncoef]; try lia; [reflexivity|]. rewrite (IH k), (IH (S k)) by lia. ring. Qed.
Lemma ncoef_lead rho i : ncoef rho i i = sgn i * Qc_of_Z (zfact i).
Proof.
  induction i; [reflexivity|]. cbn [ncoef zfact]. rewrite (ncoef_gt rho i (S i)) by lia. rewrite IHi, sgn_S, Qc_of_Z_mul. ring.
Qed.
Definition nodes (rho : nat -> nat) (i x : nat) : Z := zprod (map (fun s => Z.of_nat x - Z.of_nat (rho s))%Z (seq 0 i)).
Lemma nodes_S rho i x : nodes rho (S i) x = ((Z.of_nat x - Z.of_nat (rho i)) * nodes rho i x)%Z.
Proof. unfold nodes. rewrite seq_S, map_app, zprod_app. cbn. ring. Qed.
Lemma ncoef_nodes rho x i : qsum (fun k => ncoef rho i k * bk k x) (S i) = Qc_of_Z (nodes rho i x).
Proof.
  induction i.
  - cbn. unfold bk. rewrite pascal_n0. unfold nodes. cbn. replace (sgn 0) with 1 by reflexivity. replace (Qc_of_Z 1) with 1 by reflexivity. ring.
  - rewrite nodes_S, Qc_of_Z_mul. unfold Z.sub. rewrite Qc_of_Z_add, Qc_of_Z_opp, <- IHi, <- qsum_scale.
    rewrite (qsum_ext (fun k => ncoef rho (S i) k * bk k x) (fun k => match k with O => 0 | S k' => - Qc_of_Z (Z.of_nat k) * ncoef rho i k' * bk k x end + (Qc_of_Z (Z.of_nat k) - Qc_of_Z (Z.of_nat (rho i))) * ncoef rho i k * bk k x)).
    2:{ intros [|k] _; cbn [ncoef]; ring. }
    rewrite qsum_add. rewrite (qsum_shift (fun k => match k with O => 0 | S k' => - Qc_of_Z (Z.of_nat k) * ncoef rho i k' * bk k x end) (S i)).
    assert (forall f, qsum f (S (S i)) = qsum f (S i) + f (S i)) as QS by reflexivity. rewrite QS. rewrite (ncoef_gt rho i (S i)) by lia.
    transitivity (qsum (fun k => - Qc_of_Z (Z.of_nat (S k)) * ncoef rho i k * bk (S k) x) (S i) + qsum (fun k => (Qc_of_Z (Z.of_nat k) - Qc_of_Z (Z.of_nat (rho i))) * ncoef rho i k * bk k x) (S i)); [ring|].
    rewrite <- qsum_add. apply qsum_ext. intros k _. pose proof (bk_next x k) as B.
    transitivity (ncoef rho i k * (- Qc_of_Z (Z.of_nat (S k)) * bk (S k) x) + (Qc_of_Z (Z.of_nat k) - Qc_of_Z (Z.of_nat (rho i))) * ncoef rho i k * bk k x); [ring|]. rewrite B. ring.
Qed.
Lemma bp_bk n j k : bp n j k = sgn j * Qc_of_Z (pascal n j) * bk k j.
Proof.
  unfold bp, bk. destruct (Nat.leb_spec k j) as [L|L].
  - replace (sgn (j - k)) with (sgn j * sgn k); [ring|]. unfold sgn. rewrite Nat.even_sub by exact L. destruct (Nat.even j), (Nat.even k); cbn; ring.
  - rewrite (pascal_gt j k) by exact L. replace (Qc_of_Z 0) with 0 by reflexivity. ring.
Qed.
Lemma zprod_zero l : In 0%Z l -> zprod l = 0%Z.
Proof. induction l as [|a l IH]; [intros []|]. unfold zprod in *. cbn [fold_right]. intros [->|H]; [reflexivity|rewrite IH by exact H; ring]. Qed.
Lemma nodes_zero rho i s : (s < i)%nat -> nodes rho i (rho s) = 0%Z.
Proof. intros H. apply zprod_zero. apply in_map_iff. exists s. split; [lia|apply in_seq; lia]. Qed.
Lemma pascal_pos n k : (k <= n)%nat -> (1 <= pascal n k)%Z.
Proof.
  revert k. induction n; intros [|k] H; try lia; [cbn; lia|rewrite pascal_n0; lia|]. rewrite pascal_SS.
  specialize (IHn k ltac:(lia)). assert (0 <= pascal n (S k))%Z; [|lia].
  clear. revert k. induction n; intros k; [cbn; lia|]. rewrite pascal_SS. destruct k; [rewrite pascal_n0|specialize (IHn k) as X]; specialize (IHn 0%nat) as Y; try lia. pose proof (IHn (S k)). lia.
Qed.
Lemma sgn_abs k : sgn k = 1 \/ sgn k = - (1).
Proof. unfold sgn. destruct (Nat.even k); auto. Qed.
Lemma abs_sgn k x : Qcabs (sgn k * x) = Qcabs x.
Proof. destruct (sgn_abs k) as [-> | ->]; destruct (Qcabs_cases x) as [(? & ->)|(? & ->)]; destruct (Qcabs_cases (1 * x)) as [(? & E)|(? & E)]; destruct (Qcabs_cases (- (1) * x)) as [(? & E')|(? & E')]; rewrite ?E, ?E'; qc_lra. Qed.
Lemma abs_of_Z z : Qcabs (Qc_of_Z z) = Qc_of_Z (Z.abs z).
Proof.
  assert (forall a, (0 <= a)%Z -> 0 <= Qc_of_Z a) as NN by (intros a Ha; unfold Qcle; rewrite this_of_Z; change (this 0) with (inject_Z 0); rewrite <- Zle_Qle; exact Ha).
  destruct (Z_le_gt_dec 0 z) as [L|L].
  - rewrite Z.abs_eq by exact L. specialize (NN z L). destruct (Qcabs_cases (Qc_of_Z z)) as [(? & ->)|(? & ->)]; [reflexivity|qc_lra].
  - rewrite Z.abs_neq by lia. rewrite Qc_of_Z_opp. specialize (NN (- z)%Z ltac:(lia)). rewrite Qc_of_Z_opp in NN. destruct (Qcabs_cases (Qc_of_Z z)) as [(? & ->)|(? & ->)]; [qc_lra|reflexivity].
Qed.
Lemma Qc_of_Z_le a b : (a <= b)%Z -> Qc_of_Z a <= Qc_of_Z b.
Proof. intros H. unfold Qcle. rewrite !this_of_Z, <- Zle_Qle. exact H. Qed.

Lemma bp_pivot n i rho (row w : nat -> Qc) : (n <= 30)%nat -> (i < S n)%nat -> numbering (S n) rho ->
  (forall k, (k < S n)%nat -> row k = bp n (rho i) k + qsum (fun s => w s * bp n (rho s) k) i) -> (forall k, (k < i)%nat -> row k = 0) -> lit_1em10 <= Qcabs (row i).
Proof.
  intros Hn Hi (RG & INJ) W Z.
  assert (ncoef rho i i * row i = sgn (rho i) * Qc_of_Z (pascal n (rho i)) * Qc_of_Z (nodes rho i (rho i))) as E.
  { transitivity (qsum (fun k => ncoef rho i k * row k) (S i)).
    - cbn [qsum]. rewrite qsum_zero; [ring|]. intros k Hk. rewrite Z by exact Hk. ring.
    - rewrite (qsum_ext _ (fun k => sgn (rho i) * Qc_of_Z (pascal n (rho i)) * (ncoef rho i k * bk k (rho i)) + qsum (fun s => w s * (sgn (rho s) * Qc_of_Z (pascal n (rho s))) * (ncoef rho i k * bk k (rho s))) i)).
      2:{ intros k Hk. rewrite W by lia. rewrite bp_bk, Qcmult_plus_distr_r, <- qsum_scale. f_equal; [ring|]. apply qsum_ext. intros s Hs. rewrite bp_bk. ring. }
      rewrite qsum_add, qsum_scale, ncoef_nodes, qsum_swap. rewrite (qsum_zero _ i); [ring|]. intros s Hs. rewrite qsum_scale, ncoef_nodes, nodes_zero by exact Hs.
      replace (Qc_of_Z 0) with 0 by reflexivity. ring. }
  rewrite ncoef_lead in E. apply (f_equal Qcabs) in E. rewrite <- !Qcmult_assoc, !abs_sgn, <- Qc_of_Z_mul, abs_of_Z in E.
  set (l := map (fun s => Z.of_nat (rho i) - Z.of_nat (rho s))%Z (seq 0 i)) in *.
  assert (zfact i <= 2 ^ Z.of_nat i * Z.abs (nodes rho i (rho i)))%Z as DP.
  { unfold nodes. apply (distance_product i).
    - rewrite map_length, seq_length. reflexivity.
    - clear - INJ Hi. assert (forall m st, (st + m <= i)%nat -> NoDup (map (fun s => Z.of_nat (rho i) - Z.of_nat (rho s))%Z (seq st m))) as G.
      { induction m; intros st Hm; cbn [seq map]; constructor; [|apply IHm; lia]. intros X. apply in_map_iff in X. destruct X as (s & Es & Hs). apply in_seq in Hs. assert (s = st) by (apply INJ; lia). lia. }
      apply G. lia.
    - intros X. apply in_map_iff in X. destruct X as (s & Es & Hs). apply in_seq in Hs. assert (s = i) by (apply INJ; lia). lia. }
  assert (zfact i <= 2 ^ 30 * Z.abs (pascal n (rho i) * nodes rho i (rho i)))%Z as DB.
  { rewrite Z.abs_mul. pose proof (pascal_pos n (rho i) ltac:(specialize (RG i Hi); lia)) as PP. rewrite (Z.abs_eq (pascal n (rho i))) by lia.
    etransitivity; [exact DP|]. assert (2 ^ Z.of_nat i <= 2 ^ 30)%Z by (apply Z.pow_le_mono_r; lia). assert (0 <= 2 ^ Z.of_nat i)%Z by (apply Z.pow_nonneg; lia). 
    apply Z.mul_le_mono_nonneg; try lia. nia. }
  apply Qc_of_Z_le in DB. rewrite Qc_of_Z_mul in DB. rewrite <- E in DB.
  assert (Qcabs (Qc_of_Z (zfact i) * row i) = Qc_of_Z (zfact i) * Qcabs (row i)) as EA.
  { pose proof (zfact_pos i) as P. assert (0 < Qc_of_Z (zfact i)) as P' by (unfold Qclt; rewrite this_of_Z; change (this 0) with (inject_Z 0); rewrite <- Zlt_Qlt; exact P).
    set (f := Qc_of_Z (zfact i)) in *. clearbody f. destruct (Qcabs_cases (row i)) as [(H1 & ->)|(H1 & ->)]; destruct (Qcabs_cases (f * row i)) as [(H3 & ->)|(H3 & ->)]; try ring; exfalso.
    - pose proof (Qcmul_nonneg f (row i) (Qclt_le_weak _ _ P') H1). qc_lra.
    - assert (0 < f * - row i) by (apply Qcmul_pos; qc_lra). qc_lra. }
  rewrite EA in DB. pose proof (zfact_pos i) as P. assert (0 < Qc_of_Z (zfact i)) as P' by (unfold Qclt; rewrite this_of_Z; change (this 0) with (inject_Z 0); rewrite <- Zlt_Qlt; exact P).
  set (f := Qc_of_Z (zfact i)) in *. set (x := Qcabs (row i)) in *. clearbody f x.
  assert (Qc_of_Z (2 ^ 30) * lit_1em10 <= 1) as LT by (vm_compute; discriminate).
  assert (0 < Qc_of_Z (2 ^ 30)) as PT by (vm_compute; reflexivity).
  set (T := Qc_of_Z (2 ^ 30)) in *. clearbody T. set (e := lit_1em10) in *. clearbody e. clear - DB P' LT PT.
  assert (1 <= T * x) as L1. { destruct (Qclt_le_dec (T * x) 1) as [C|C]; [exfalso|exact C]. assert (0 < f * (1 - T * x)) by (apply Qcmul_pos; qc_lra). qc_nra. }
  destruct (Qclt_le_dec x e) as [C|C]; [exfalso|exact C]. assert (0 < T * (e - x)) by (apply Qcmul_pos; qc_lra). qc_nra.
Qed.

Lemma bpmat_inverse n : (n <= 30)%nat -> exists m mi B, bpmat (Z.of_nat n) = Ok m /\ rep m (S n) (S n) (bp n) /\ md_inverse m = Ok mi /\ rep mi (S n) (S n) B /\
  (forall i j, (i < S n)%nat -> (j < S n)%nat -> qsum (fun k => B i k * bp n k j) (S n) = delta i j).
Proof.
  intros Hn. destruct (bpmat_rep n Hn) as (m & E & R).
  destruct (md_inverse_rep m (S n) (bp n) R) as [E'|(mi & B & E' & R' & _ & I)].
  - exfalso. revert E'. apply (gauss_succeeds (S n) (bp n)); [|exact R]. intros i rho row w Hi NU W Z. exact (bp_pivot n i rho row w Hn Hi NU W Z).
  - exists m, mi, B. auto 10.
Qed.

(** ** arrays as functions *)
Section Arrays.
Context {A : Type} (d : A).
Definition trep (T : list (list A)) (n m : nat) (F : nat -> nat -> A) : Prop :=
  length T = n /\ (forall i, (i < n)%nat -> length (nth i T []) = m) /\ forall i j, (i < n)%nat -> (j < m)%nat -> nth j (nth i T []) d = F i j.
Definition updf (F : nat -> nat -> A) i j x := fun a b => if (Nat.eqb a i && Nat.eqb b j)%bool then x else F a b.

Lemma trep_row T n m F i : trep T n m F -> (i < n)%nat -> exists row, get T i = Ok row /\ row = nth i T [] /\ length row = m.
Proof. intros (L & S & _) H. exists (nth i T []). rewrite (get_ok T i []) by lia. split; [reflexivity|]. split; [reflexivity|auto]. Qed.
Lemma trep_ext T n m F G : (forall i j, (i < n)%nat -> (j < m)%nat -> F i j = G i j) -> trep T n m F -> trep T n m G.
Proof. intros H (A1 & B & C). split; [exact A1|]. split; [exact B|]. intros. rewrite <- H by assumption. auto. Qed.
Lemma trep_get T n m F i j : trep T n m F -> (i < n)%nat -> (j < m)%nat -> tget T i j = Ok (F i j).
Proof. intros (L & S & N) Hi Hj. unfold tget. rewrite (get_ok T i []) by lia. cbn [bind]. rewrite (get_ok _ _ d) by (rewrite S by assumption; assumption). f_equal. auto. Qed.
Lemma trep_set T n m F i j x : trep T n m F -> (i < n)%nat -> (j < m)%nat -> exists T', tset T i j x = Ok T' /\ trep T' n m (updf F i j x).
Proof.
  intros (L & S & N) Hi Hj. unfold tset. rewrite (get_ok T i []) by lia. cbn [bind].
  destruct (set_nth_ok (nth i T []) j x) as (row & E & Lr & Nr); [rewrite S by assumption; assumption|]. rewrite E. cbn [bind].
  destruct (set_nth_ok T i row) as (T' & E' & L' & N'); [lia|]. exists T'. split; [exact E'|]. split; [lia|]. split.
  - intros a Ha. rewrite N'. destruct (Nat.eqb_spec a i) as [->|]; [rewrite Lr|]; auto.
  - intros a b Ha Hb. rewrite N'. unfold updf. destruct (Nat.eqb_spec a i) as [->|]; cbn [andb]; [|auto]. rewrite Nr. destruct (Nat.eqb b j); auto.
Qed.
Lemma trep_repeat n m x : trep (repeat (repeat x m) n) n m (fun _ _ => x).
Proof.
  assert (forall {B} (b e : B) n i, (i < n)%nat -> nth i (repeat b n) e = b) as NR.
  { intros B b e k. induction k; intros [|i] H; cbn; try lia; [reflexivity|apply IHk; lia]. }
  split; [apply repeat_length|]. split; intros; rewrite NR by assumption; [apply repeat_length|apply NR; assumption].
Qed.
Lemma trep_eq T1 T2 n m F : trep T1 n m F -> trep T2 n m F -> T1 = T2.
Proof.
  intros (L1 & S1 & N1) (L2 & S2 & N2). apply (nth_ext_len _ _ []); [congruence|]. intros i Hi.
  apply (nth_ext_len _ _ d); [rewrite S1, S2 by lia; reflexivity|]. intros j Hj. rewrite S1 in Hj by lia. rewrite N1, N2 by lia. reflexivity.
Qed.

(** loops that rewrite cell (i, j) *)
Lemma cells_loop (body : nat -> nat -> list (list A) -> res (list (list A))) (count : list (list A) -> nat -> nat) n m (G : nat -> nat -> A) F T :
  (forall i j T F', (i < n)%nat -> (j < m)%nat -> trep T n m F' -> F' i j = F i j -> exists T', body i j T = Ok T' /\ trep T' n m (updf F' i j (G i j))) ->
  trep T n m F ->
  exists T', for_up n 0 (fun i t => for_up m 0 (fun j t => body i j t) t) T = Ok T' /\ trep T' n m G.
Proof.
  intros Hb HT.
  destruct (for_up_inv (fun i t => trep t n m (fun a b => if Nat.ltb a i then G a b else F a b))
    (fun i t => for_up m 0 (fun j t => body i j t) t) n 0 T) as (T' & E & R).
  - revert HT. apply trep_ext. intros. destruct (Nat.ltb_spec i 0); [lia|reflexivity].
  - intros i t _ Hi Ht.
    destruct (for_up_inv (fun j t => trep t n m (fun a b => if (Nat.ltb a i || (Nat.eqb a i && Nat.ltb b j))%bool then G a b else F a b))
      (fun j t => body i j t) m 0 t) as (t' & E & R).
    + revert Ht. apply trep_ext. intros. destruct (Nat.ltb_spec i0 i); cbn; [reflexivity|]. destruct (Nat.eqb i0 i); reflexivity.
    + intros j t1 _ Hj Ht1. destruct (Hb i j t1 _ Hi Hj Ht1) as (t2 & E & R).
      { rewrite Nat.ltb_irrefl, Nat.eqb_refl, Nat.ltb_irrefl. reflexivity. }
      exists t2. split; [exact E|]. revert R. apply trep_ext. unfold updf. upds.
    + exists t'. split; [exact E|]. revert R. apply trep_ext. upds.
  - exists T'. split; [exact E|]. revert R. apply trep_ext. upds.
Qed.
End Arrays.

Lemma for_up_ext {S} (b1 b2 : nat -> S -> res S) : forall n a s, (forall i s, (a <= i < a + n)%nat -> b1 i s = b2 i s) -> for_up n a b1 s = for_up n a b2 s.
Proof.
  induction n; intros a s H; cbn [for_up]; [reflexivity|]. rewrite (H a s) by lia. destruct (b2 a s); cbn [bind]; [|reflexivity|reflexivity].
  apply IHn. intros. apply H. lia.
Qed.

Definition v3d : vec3 := V3 0 0 0.
Definition v4d : vec4 := V4 0 0 0 0.

Lemma get_component_rep T n m F c : trep v3d T (S n) m F -> exists r, get_component T c = Ok r /\ rep r (S n) m (fun i j => comp3 c (F i j)).
Proof.
  intros HT. pose proof HT as (L & S0 & N). unfold get_component.
  destruct (trep_row v3d T _ _ F 0 HT ltac:(lia)) as (r0 & -> & -> & Lr). cbn [bind]. rewrite Lr, L.
  destruct (for_up_inv (fun i r => rep r (S n) m (fun a b => if Nat.ltb a i then comp3 c (F a b) else 0))
    (fun i r => row <- get T i ;; for_up (length row) 0 (fun j r => v <- get row j ;; md_set r i j (comp3 c v)) r) (S n) 0 (md_zero (S n) m)) as (r & E & R).
  - eapply rep_ext; [|apply rep_zero]. upds.
  - intros i r _ Hi Hr. destruct (trep_row v3d T _ _ F i HT ltac:(lia)) as (row & -> & Er & Lrow). cbn [bind]. rewrite Lrow.
    destruct (row_loop (fun j r => v <- get row j ;; md_set r i j (comp3 c v)) (S n) m (fun a b => if Nat.ltb a i then comp3 c (F a b) else 0) (fun b => comp3 c (F i b)) i m r) as (r' & E & R); try lia; try assumption.
    + intros j r1 Hj Hr1. rewrite (get_ok row j v3d) by lia. cbn [bind]. rewrite Er, N by lia. apply rep_set; [assumption|lia|lia].
    + exists r'. split; [exact E|]. revert R. apply rep_ext. upds.
  - exists r. split; [exact E|]. revert R. apply rep_ext. upds.
Qed.

Lemma set_component_rep {A} (d : A) (put : Qc -> A -> A) v T n m F G : trep d T n m F -> rep v n m G ->
  exists T', set_component put v T = Ok T' /\ trep d T' n m (fun i j => put (G i j) (F i j)).
Proof.
  intros HT Hv. pose proof HT as (L & _). unfold set_component. rewrite L.
  destruct (for_up_inv (fun i t => trep d t n m (fun a b => if Nat.ltb a i then put (G a b) (F a b) else F a b))
    (fun i t => row <- get t i ;; for_up (length row) 0 (fun j t => v0 <- tget t i j ;; x <- md_get v i j ;; tset t i j (put x v0)) t) n 0 T) as (T' & E & R).
  - revert HT. apply trep_ext. intros. destruct (Nat.ltb_spec i 0); [lia|reflexivity].
  - intros i t _ Hi Ht. destruct (trep_row d t _ _ _ i Ht Hi) as (row & -> & _ & Lr). cbn [bind]. rewrite Lr.
    destruct (for_up_inv (fun j t => trep d t n m (fun a b => if (Nat.ltb a i || (Nat.eqb a i && Nat.ltb b j))%bool then put (G a b) (F a b) else F a b))
      (fun j t => v0 <- tget t i j ;; x <- md_get v i j ;; tset t i j (put x v0)) m 0 t) as (t' & E & R).
    + revert Ht. apply trep_ext. intros. destruct (Nat.ltb_spec i0 i); cbn; [reflexivity|]. destruct (Nat.eqb i0 i); reflexivity.
    + intros j t1 _ Hj Ht1. rewrite (trep_get d _ _ _ _ _ _ Ht1), (rep_get _ _ _ _ _ _ Hv) by assumption. cbn [bind].
      rewrite Nat.ltb_irrefl, Nat.eqb_refl, Nat.ltb_irrefl. cbn [andb orb].
      destruct (trep_set d _ _ _ _ i j (put (G i j) (F i j)) Ht1 Hi Hj) as (t2 & E & R). exists t2. split; [exact E|]. revert R. apply trep_ext. unfold updf. upds.
    + exists t'. split; [exact E|]. revert R. apply trep_ext. upds.
  - exists T'. split; [exact E|]. revert R. apply trep_ext. upds.
Qed.

(** ** Monomial2D(surface) and to_bezier *)
Definition sandwich (L X R : nat -> nat -> Qc) (n m : nat) (i j : nat) : Qc := qsum (fun b => qsum (fun a => L i a * X a b) n * R j b) m.

Lemma component_rep T n m F left L right R c : trep v3d T (S n) m F -> rep left (S n) (S n) L -> rep right m m (fun i j => R j i) ->
  exists v, mo_component T left right c = Ok v /\ rep v (S n) m (sandwich L (fun a b => comp3 c (F a b)) R (S n) m).
Proof.
  intros HT HL HR. unfold mo_component. destruct (get_component_rep T n m F c HT) as (g & -> & Rg). cbn [bind].
  destruct (md_mul_rep left g (S n) (S n) m _ _ HL Rg) as (p & -> & Rp). cbn [bind].
  destruct (md_mul_rep p right (S n) m m _ _ Rp HR) as (q & -> & Rq). exists q. split; [reflexivity|]. revert Rq. apply rep_ext. reflexivity.
Qed.

Definition from_comps (X : nat -> nat -> nat -> Qc) (i j : nat) : vec3 := V3 (X 0%nat i j) (X 1%nat i j) (X 2%nat i j).

Lemma three_components {A} (d : A) (put : nat -> Qc -> A -> A) (comp : nat -> res matd) X T n m F :
  trep d T n m F -> (forall c, (c < 3)%nat -> exists v, comp c = Ok v /\ rep v n m (X c)) ->
  exists T', for_up 3 0 (fun c t => v <- comp c ;; set_component (put c) v t) T = Ok T' /\
    trep d T' n m (fun i j => put 2%nat (X 2%nat i j) (put 1%nat (X 1%nat i j) (put 0%nat (X 0%nat i j) (F i j)))).
Proof.
  intros HT HC. cbn [for_up].
  destruct (HC 0%nat ltac:(lia)) as (v0 & -> & R0). cbn [bind]. destruct (set_component_rep d (put 0%nat) v0 T n m F _ HT R0) as (T1 & -> & H1). cbn [bind].
  destruct (HC 1%nat ltac:(lia)) as (v1 & -> & R1). cbn [bind]. destruct (set_component_rep d (put 1%nat) v1 T1 n m _ _ H1 R1) as (T2 & -> & H2). cbn [bind].
  destruct (HC 2%nat ltac:(lia)) as (v2 & -> & R2). cbn [bind]. destruct (set_component_rep d (put 2%nat) v2 T2 n m _ _ H2 R2) as (T3 & -> & H3). cbn [bind].
  exists T3. split; [reflexivity|exact H3].
Qed.

Lemma mapM_seq {B} (f : nat -> res B) (g : nat -> B) (d : B) : forall n a, (forall i, (a <= i < a + n)%nat -> f i = Ok (g i)) -> 
  exists l, mapM f (seq a n) = Ok l /\ length l = n /\ forall i, (i < n)%nat -> nth i l d = g (a + i)%nat.
Proof.
  induction n; intros a H; cbn [seq mapM].
  - exists []. split; [reflexivity|]. split; [reflexivity|]. intros; lia.
  - rewrite (H a) by lia. cbn [bind]. destruct (IHn (S a)) as (l & -> & L & N); [intros; apply H; lia|]. cbn [bind].
    exists (g a :: l). split; [reflexivity|]. split; [cbn; lia|]. intros [|i] Hi; cbn [nth]; [f_equal; lia|]. rewrite N by lia. f_equal. lia.
Qed.

Lemma cpts3d_rep s n m : shape (ns_cps s) n m -> ns_su s = n -> ns_sv s = m -> (forall i j, (i < n)%nat -> (j < m)%nat -> ww (cp (ns_cps s) i j) <> 0) ->
  exists T, control_points3d s = Ok T /\ trep v3d T n m (fun i j => euclid (cp (ns_cps s) i j)).
Proof.
  intros (L & Sh) <- <- W. unfold control_points3d.
  assert (forall i, (0 <= i < 0 + ns_su s)%nat -> exists row, mapM (fun j => v <- tget (ns_cps s) i j ;;
    x <- qdiv (wx v) (ww v) ;; y <- qdiv (wy v) (ww v) ;; z <- qdiv (wz v) (ww v) ;; Ok (V3 x y z)) (seq 0 (ns_sv s)) = Ok row /\ length row = ns_sv s /\
    forall j, (j < ns_sv s)%nat -> nth j row v3d = euclid (cp (ns_cps s) i j)) as Row.
  { intros i Hi. destruct (mapM_seq (fun j => v <- tget (ns_cps s) i j ;;
    x <- qdiv (wx v) (ww v) ;; y <- qdiv (wy v) (ww v) ;; z <- qdiv (wz v) (ww v) ;; Ok (V3 x y z)) (fun j => euclid (cp (ns_cps s) i j)) v3d (ns_sv s) 0) as (l & E & Ll & N).
    - intros j Hj. unfold tget. rewrite (get_ok _ _ []) by lia. cbn [bind]. rewrite (get_ok _ _ (V4 0 0 0 0)) by (rewrite Sh by lia; lia). cbn [bind].
      fold (cp (ns_cps s) i j). unfold qdiv. destruct (Qceqb_spec (ww (cp (ns_cps s) i j)) 0) as [E|_]; [exfalso; apply (W i j); [lia|lia|exact E]|]. reflexivity.
    - exists l. auto. }
  set (f := fun i => mapM _ (seq 0 (ns_sv s))) in *.
  destruct (mapM_seq f (fun i => match f i with Ok r => r | _ => [] end) [] (ns_su s) 0) as (T & E & LT & N).
  { intros i Hi. destruct (Row i Hi) as (row & Er & _). unfold f. rewrite Er. reflexivity. }
  exists T. split; [exact E|]. split; [exact LT|]. split; intros i Hi; [|intros j Hj]; rewrite N by assumption; cbn [Nat.add]; destruct (Row i ltac:(lia)) as (row & Er & Lr & Nr); unfold f; rewrite Er; [exact Lr|apply Nr; assumption].
Qed.

Lemma mo_of_surface_ok s n m : (n <= 30)%nat -> (m <= 30)%nat -> shape (ns_cps s) (S n) (S m) -> ns_su s = S n -> ns_sv s = S m ->
  (forall i j, (i <= n)%nat -> (j <= m)%nat -> ww (cp (ns_cps s) i j) <> 0) ->
  exists o Bu Bv, mo_of_surface s = Ok o /\ mo_n o = S n /\ mo_m o = S m /\
    trep v3d (mo_coeffs o) (S n) (S m) (from_comps (fun c => sandwich (bp n) (fun a b => comp3 c (euclid (cp (ns_cps s) a b))) (bp m) (S n) (S m))) /\
    rep (mo_Mui o) (S n) (S n) Bu /\ rep (mo_Mvi o) (S m) (S m) Bv /\
    (forall i j, (i < S n)%nat -> (j < S n)%nat -> qsum (fun k => Bu i k * bp n k j) (S n) = delta i j) /\
    (forall i j, (i < S m)%nat -> (j < S m)%nat -> qsum (fun k => Bv i k * bp m k j) (S m) = delta i j).
Proof.
  intros Hn Hm Sh Su Sv W. unfold mo_of_surface. rewrite Su, Sv.
  replace (Z.of_nat (S n) - 1)%Z with (Z.of_nat n) by lia. replace (Z.of_nat (S m) - 1)%Z with (Z.of_nat m) by lia.
  destruct (bpmat_inverse n Hn) as (mu & mui & Bu & -> & Ru & Eu & Rui & Iu). destruct (bpmat_inverse m Hm) as (mv & mvi & Bv & -> & Rv & Ev & Rvi & Iv). cbn [bind].
  rewrite Eu, Ev. cbn [bind].
  destruct (cpts3d_rep s (S n) (S m) Sh Su Sv) as (T & -> & RT); [intros; apply W; lia|]. cbn [bind].
  destruct (md_transpose_rep mv _ _ _ Rv) as (mvt & -> & Rt). cbn [bind].
  destruct (three_components v3d put3 (fun c => mo_component T mu mvt c) (fun c => sandwich (bp n) (fun a b => comp3 c (euclid (cp (ns_cps s) a b))) (bp m) (S n) (S m))
    (repeat (repeat v3zero (S m)) (S n)) (S n) (S m) (fun _ _ => v3zero) (trep_repeat v3d _ _ _)) as (co & E & Rco).
  { intros c _. apply (component_rep T n (S m) _ mu _ mvt _ c RT Ru Rt). }
  cbv beta in E. rewrite E. cbn [bind]. eexists. exists Bu, Bv. split; [reflexivity|]. cbn [mo_n mo_m mo_coeffs mo_Mui mo_Mvi].
  split; [reflexivity|]. split; [reflexivity|]. split; [exact Rco|]. auto.
Qed.

(** B (A X A'^T) B'^T = X when B A = 1 and B' A' = 1 *)
Lemma sandwich_cancel n m A B A' B' X i j :
  (forall i j, (i < n)%nat -> (j < n)%nat -> qsum (fun k => B i k * A k j) n = delta i j) ->
  (forall i j, (i < m)%nat -> (j < m)%nat -> qsum (fun k => B' i k * A' k j) m = delta i j) -> (i < n)%nat -> (j < m)%nat ->
  sandwich B (sandwich A X A' n m) B' n m i j = X i j.
Proof.
  intros I I' Hi Hj. unfold sandwich.
  transitivity (qsum (fun b => qsum (fun d => X i d * A' b d) m * B' j b) m).
  { apply qsum_ext. intros b Hb. f_equal.
    transitivity (qsum (fun a => qsum (fun d => qsum (fun c => B i a * A a c * X c d * A' b d) n) m) n).
    { apply qsum_ext. intros a Ha. rewrite <- qsum_scale. apply qsum_ext. intros d Hd.
      transitivity (qsum (fun c => (B i a * A' b d) * (A a c * X c d)) n); [rewrite qsum_scale; ring|]. apply qsum_ext. intros. ring. }
    rewrite qsum_swap. apply qsum_ext. intros d Hd. rewrite qsum_swap.
    transitivity (qsum (fun c => A' b d * (delta i c * X c d)) n).
    { apply qsum_ext. intros c Hc. rewrite <- (I i c Hi Hc). transitivity (qsum (fun a => X c d * A' b d * (B i a * A a c)) n); [apply qsum_ext; intros; ring|]. rewrite qsum_scale. ring. }
    rewrite qsum_scale, (qsum_delta_l (fun c => X c d) i n Hi). ring. }
  transitivity (qsum (fun b => qsum (fun d => X i d * A' b d * B' j b) m) m).
  { apply qsum_ext. intros b Hb. transitivity (B' j b * qsum (fun d => X i d * A' b d) m); [ring|]. rewrite <- qsum_scale. apply qsum_ext. intros; ring. }
  rewrite qsum_swap. transitivity (qsum (fun d => delta j d * X i d) m); [|apply (qsum_delta_l (X i) j m Hj)].
  apply qsum_ext. intros d Hd. rewrite <- (I' j d Hj Hd).
  transitivity (qsum (fun b => X i d * (B' j b * A' b d)) m); [apply qsum_ext; intros; ring|]. rewrite qsum_scale. ring.
Qed.
