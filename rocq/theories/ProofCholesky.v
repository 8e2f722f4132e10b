(** Cholesky factorisation and the triangular solvers. *)
From Coq Require Import List ZArith Reals Lia Lra Bool.
From Verif Require Import Base LoopFacts ModelNewton SpecNewton.
Import ListNotations.
Open Scope R_scope.

(** ** sums *)
Lemma rsum_ext f g n : (forall i, (i < n)%nat -> f i = g i) -> rsum f n = rsum g n.
Proof. induction n; intros H; cbn [rsum]; [reflexivity|]. rewrite IHn, H by (intros; try apply H; lia). reflexivity. Qed.
Lemma rsum_zero f n : (forall i, (i < n)%nat -> f i = 0) -> rsum f n = 0.
Proof. induction n; intros H; cbn [rsum]; [reflexivity|]. rewrite IHn, H by (intros; try apply H; lia). ring. Qed.
Lemma rsum_add f g n : rsum (fun i => f i + g i) n = rsum f n + rsum g n.
Proof. induction n; cbn [rsum]; [ring|rewrite IHn; ring]. Qed.
Lemma rsum_scale k f n : rsum (fun i => k * f i) n = k * rsum f n.
Proof. induction n; cbn [rsum]; [ring|rewrite IHn; ring]. Qed.
Lemma rsum_scale_r k f n : rsum (fun i => f i * k) n = rsum f n * k.
Proof. induction n; cbn [rsum]; [ring|rewrite IHn; ring]. Qed.
Lemma rsum_swap (f : nat -> nat -> R) a b : rsum (fun i => rsum (fun j => f i j) b) a = rsum (fun j => rsum (fun i => f i j) a) b.
Proof. induction a; cbn [rsum]; [symmetry; apply rsum_zero; reflexivity|]. rewrite IHa, <- rsum_add. reflexivity. Qed.
Lemma rsum_nonneg f n : (forall i, (i < n)%nat -> 0 <= f i) -> 0 <= rsum f n.
Proof. induction n; intros H; cbn [rsum]; [lra|]. specialize (IHn ltac:(intros; apply H; lia)). specialize (H n ltac:(lia)). lra. Qed.
Lemma rsum_split f m n : rsum f (m + n) = rsum f m + rsum (fun i => f (m + i)%nat) n.
Proof. induction n; [rewrite Nat.add_0_r; cbn; ring|]. rewrite Nat.add_succ_r. cbn [rsum]. rewrite IHn. ring. Qed.
Lemma rsum_cut f m n : (m <= n)%nat -> (forall i, (m <= i < n)%nat -> f i = 0) -> rsum f n = rsum f m.
Proof.
  intros L H. replace n with (m + (n - m))%nat by lia. rewrite rsum_split, (rsum_zero (fun i => f (m + i)%nat)); [ring|]. intros. apply H. lia.
Qed.
Lemma rsum_point f n k : (k < n)%nat -> (forall i, (i < n)%nat -> i <> k -> f i = 0) -> rsum f n = f k.
Proof.
  intros L H. induction n; [lia|]. cbn [rsum]. destruct (Nat.eq_dec k n) as [->|].
  - rewrite rsum_zero; [ring|]. intros. apply H; lia.
  - rewrite IHn by (try lia; intros; apply H; lia). rewrite (H n) by lia. ring.
Qed.
Lemma rsum_pos_member f n k : (k < n)%nat -> (forall i, (i < n)%nat -> 0 <= f i) -> 0 < f k -> 0 < rsum f n.
Proof.
  intros L H P. induction n; [lia|]. cbn [rsum]. destruct (Nat.eq_dec k n) as [->|].
  - pose proof (rsum_nonneg f n ltac:(intros; apply H; lia)). lra.
  - specialize (IHn ltac:(lia) ltac:(intros; apply H; lia)). specialize (H n ltac:(lia)). lra.
Qed.

(** ** cells *)
Lemma mget_ok n m i j : msq n m -> (i < n)%nat -> (j < n)%nat -> mget m i j = Ok (ment m i j).
Proof.
  intros (L & R) Hi Hj. unfold mget. rewrite (get_ok _ _ []) by lia. cbn [bind]. rewrite (get_ok _ _ 0) by (rewrite R by assumption; lia). reflexivity.
Qed.
Lemma mset_ok n m i j x : msq n m -> (i < n)%nat -> (j < n)%nat ->
  exists m', mset m i j x = Ok m' /\ msq n m' /\ forall a b, ment m' a b = if (Nat.eqb a i && Nat.eqb b j)%bool then x else ment m a b.
Proof.
  intros (L & R) Hi Hj. unfold mset. rewrite (get_ok _ _ []) by lia. cbn [bind].
  destruct (set_nth_ok (nth i m []) j x) as (r & E & Lr & Nr); [rewrite R by assumption; lia|]. rewrite E. cbn [bind].
  destruct (set_nth_ok m i r) as (m' & E' & L' & N'); [lia|]. exists m'. split; [exact E'|]. split.
  - split; [lia|]. intros a Ha. rewrite N'. destruct (Nat.eqb_spec a i) as [->|]; [|apply R; assumption]. rewrite Lr. apply R. assumption.
  - intros a b. unfold ment. rewrite N'. destruct (Nat.eqb_spec a i) as [->|]; cbn [andb]; [|reflexivity]. apply Nr.
Qed.
Lemma nth_repeat_in {A} (a d : A) n i : (i < n)%nat -> nth i (repeat a n) d = a.
Proof. revert i. induction n; intros i H; [lia|]. destruct i; [reflexivity|]. cbn. apply IHn. lia. Qed.
Lemma mzero_sq n : msq n (mzero n).
Proof. unfold mzero. split; [apply repeat_length|]. intros i Hi. rewrite nth_repeat_in by assumption. apply repeat_length. Qed.
Lemma mzero_ent n i j : ment (mzero n) i j = 0.
Proof.
  unfold ment, mzero. destruct (Nat.lt_ge_cases i n).
  - rewrite (nth_repeat_in (repeat 0 n)) by assumption. apply nth_repeat.
  - rewrite (nth_overflow (repeat (repeat 0 n) n)) by (rewrite repeat_length; lia). destruct j; reflexivity.
Qed.
Lemma rdiv_ok a b : b <> 0 -> rdiv a b = Ok (a / b).
Proof. intros H. unfold rdiv. destruct (Req_EM_T b 0); [contradiction|reflexivity]. Qed.

Lemma sub_loop (body : nat -> R -> res R) (h : nat -> R) cnt start s0 :
  (forall k s, (start <= k < start + cnt)%nat -> body k s = Ok (s - h k)) ->
  for_up cnt start body s0 = Ok (s0 - rsum (fun i => h (start + i)%nat) cnt).
Proof.
  intros H.
  destruct (for_up_inv (fun k s => s = s0 - rsum (fun i => h (start + i)%nat) (k - start)) body cnt start s0) as (s & E & R).
  - rewrite Nat.sub_diag. cbn. ring.
  - intros k s H1 H2 ->. rewrite H by lia. eexists. split; [reflexivity|].
    replace (S k - start)%nat with (S (k - start)) by lia. cbn [rsum]. replace (start + (k - start))%nat with k by lia. ring.
  - rewrite E, R. replace (start + cnt - start)%nat with cnt by lia. reflexivity.
Qed.

(** ** the factorisation *)
Section Chol.
Variables (n : nat) (H : rmat).
Hypothesis HS : msq n H.

Definition before (i j a b : nat) : Prop := (a < i \/ (a = i /\ b < j))%nat.
Definition partial (i j : nat) (L : rmat) : Prop :=
  msq n L /\ (forall a b, ~ before i j a b \/ (a < b)%nat -> ment L a b = 0) /\
  (forall a, before i j a a -> 0 < ment L a a) /\
  (forall a b, (b <= a)%nat -> before i j a b -> rsum (fun k => ment L a k * ment L b k) (S b) = ment H a b).

Definition indefinite : Prop := exists x : nat -> R, (exists i, (i < n)%nat /\ x i <> 0) /\ quad_form n H x <= 0.

(** the transposed triangular system of size m has a solution *)
Lemma transposed_solution (L : nat -> nat -> R) m : (forall a b, (a < b)%nat -> L a b = 0) -> (forall a, (a < m)%nat -> L a a <> 0) ->
  forall w, exists z, forall k, (k < m)%nat -> rsum (fun a => L a k * z a) m = w k.
Proof.
  intros LT. induction m; intros D w; [exists (fun _ => 0); intros; lia|].
  set (zm := w m / L m m). destruct (IHm ltac:(intros; apply D; lia) (fun k => w k - L m k * zm)) as (z & Hz).
  exists (fun a => if Nat.eqb a m then zm else z a). intros k Hk. cbn [rsum]. rewrite Nat.eqb_refl.
  rewrite (rsum_ext _ (fun a => L a k * z a)) by (intros i Hi; destruct (Nat.eqb_spec i m); [lia|reflexivity]).
  destruct (Nat.eq_dec k m) as [->|].
  - rewrite rsum_zero by (intros; rewrite LT by assumption; ring). unfold zm. field. apply D. lia.
  - rewrite Hz by lia. ring.
Qed.

Lemma gram_form (L : nat -> nat -> R) x : 
  rsum (fun a => rsum (fun b => x a * rsum (fun k => L a k * L b k) n * x b) n) n = rsum (fun k => rsum (fun a => x a * L a k) n * rsum (fun a => x a * L a k) n) n.
Proof.
  transitivity (rsum (fun a => rsum (fun b => rsum (fun k => (x a * L a k) * (x b * L b k)) n) n) n).
  { apply rsum_ext. intros a _. apply rsum_ext. intros b _. rewrite <- rsum_scale, <- rsum_scale_r. apply rsum_ext. intros. ring. }
  transitivity (rsum (fun a => rsum (fun k => rsum (fun b => (x a * L a k) * (x b * L b k)) n) n) n).
  { apply rsum_ext. intros a _. apply rsum_swap. }
  rewrite rsum_swap. apply rsum_ext. intros k _.
  rewrite <- rsum_scale_r. apply rsum_ext. intros a _. rewrite rsum_scale. reflexivity.
Qed.

Lemma gram_row i j L a b : partial i j L -> (b <= a)%nat -> before i j a b -> (a < n)%nat -> rsum (fun k => ment L a k * ment L b k) n = ment H a b.
Proof.
  intros (_ & Z & _ & G) Hab B Ha. rewrite <- (G a b Hab B). apply rsum_cut; [lia|]. intros k Hk. rewrite (Z b k) by (right; lia). ring.
Qed.

Lemma fail_indefinite i L : partial i i L -> (i < n)%nat -> symmetric n H -> ment H i i - rsum (fun k => ment L i k * ment L i k) i <= 0 -> indefinite.
Proof.
  intros P Hi Sy F. pose proof P as (SQ & Z & D & G).
  destruct (transposed_solution (ment L) i) with (w := fun k => ment L i k) as (z & Hz).
  { intros a b Hab. apply Z. right. assumption. }
  { intros a Ha E. specialize (D a ltac:(unfold before; lia)). lra. }
  set (x := fun a : nat => if Nat.ltb a i then - z a else if Nat.eqb a i then 1 else 0). exists x. split.
  { exists i. split; [assumption|]. unfold x. rewrite Nat.ltb_irrefl, Nat.eqb_refl. lra. }
  set (sm := ment H i i - rsum (fun k => ment L i k * ment L i k) i) in F.
  assert (forall a b, (a <= i)%nat -> (b <= i)%nat -> ment H a b = rsum (fun k => ment L a k * ment L b k) n + (if (Nat.eqb a i && Nat.eqb b i)%bool then sm else 0)) as HE.
  { assert (forall a b, (b <= a <= i)%nat -> ment H a b = rsum (fun k => ment L a k * ment L b k) n + (if (Nat.eqb a i && Nat.eqb b i)%bool then sm else 0)) as HE.
    { intros a b Hab. destruct (Nat.eqb_spec b i) as [->|].
      - assert (a = i) as -> by lia. rewrite Nat.eqb_refl. cbn [andb]. unfold sm. rewrite (rsum_cut _ i n) by (try lia; intros k Hk; rewrite (Z i k) by (left; unfold before; lia); ring). ring.
      - rewrite andb_false_r, (gram_row i i L a b P) by (unfold before; lia). ring. }
    intros a b Ha Hb. destruct (Nat.le_ge_cases b a); [apply HE; lia|]. rewrite Sy by lia. rewrite HE by lia.
    rewrite andb_comm. f_equal. apply rsum_ext. intros. ring. }
  assert (forall a, (i < a)%nat -> x a = 0) as X0. { intros a Ha. unfold x. destruct (Nat.ltb_spec a i); [lia|]. destruct (Nat.eqb_spec a i); [lia|reflexivity]. }
  assert (x i = 1) as X1. { unfold x. rewrite Nat.ltb_irrefl, Nat.eqb_refl. reflexivity. }
  assert (quad_form n H x = rsum (fun k => rsum (fun a => x a * ment L a k) n * rsum (fun a => x a * ment L a k) n) n + sm) as QF.
  { rewrite <- (gram_form (ment L) x). unfold quad_form.
    transitivity (rsum (fun a => rsum (fun b => x a * rsum (fun k => ment L a k * ment L b k) n * x b) n + rsum (fun b => x a * (if (Nat.eqb a i && Nat.eqb b i)%bool then sm else 0) * x b) n) n).
    - apply rsum_ext. intros a Ha. rewrite <- rsum_add. apply rsum_ext. intros b Hb.
      destruct (Nat.le_gt_cases a i); [|rewrite (X0 a) by lia; ring]. destruct (Nat.le_gt_cases b i); [|rewrite (X0 b) by lia; ring]. rewrite HE by assumption. ring.
    - rewrite rsum_add. f_equal. rewrite (rsum_point _ n i Hi) by (intros a Ha Na; apply rsum_zero; intros; destruct (Nat.eqb_spec a i); [contradiction|]; cbn [andb]; ring).
      rewrite (rsum_point _ n i Hi) by (intros b Hb Nb; destruct (Nat.eqb_spec b i); [contradiction|]; rewrite andb_false_r; ring).
      rewrite Nat.eqb_refl. cbn [andb]. rewrite X1. ring. }
  rewrite QF, rsum_zero; [lra|]. intros k Hk.
  enough (rsum (fun a => x a * ment L a k) n = 0) as -> by ring.
  rewrite (rsum_cut _ (S i) n) by (try lia; intros; rewrite X0 by lia; ring). cbn [rsum]. rewrite X1.
  destruct (Nat.lt_ge_cases k i) as [K|K].
  - rewrite (rsum_ext _ (fun a => (-1) * (ment L a k * z a))), rsum_scale, (Hz k K); [ring|].
    intros a Ha. unfold x. destruct (Nat.ltb_spec a i); [ring|lia].
  - rewrite rsum_zero; [|intros a Ha; rewrite (Z a k) by (right; lia); ring]. rewrite (Z i k) by (left; unfold before; lia). ring.
Qed.

(** one entry *)
Lemma cell_ok i j L : (j <= i < n)%nat -> partial i j L ->
  (exists L', chol_cell H i j (Some L) = Ok (Some L') /\ partial i (S j) L') \/ (chol_cell H i j (Some L) = Ok None /\ (symmetric n H -> indefinite)).
Proof.
  intros Hij P. pose proof P as (SQ & Z & D & G). unfold chol_cell. rewrite (mget_ok n) by (assumption || lia). cbn [bind].
  rewrite (sub_loop _ (fun k => ment L i k * ment L j k)) by (intros k s Hk; rewrite !(mget_ok n) by (assumption || lia); reflexivity).
  cbn [bind]. set (sum := ment H i j - _).
  assert (forall x, (if Nat.eqb i j then 0 < x else True) -> x * (if Nat.eqb i j then x else ment L j j) = sum ->
    forall L', msq n L' -> (forall a b, ment L' a b = if (Nat.eqb a i && Nat.eqb b j)%bool then x else ment L a b) -> partial i (S j) L') as STEP.
  { intros x Px Ex L' SQ' N'. split; [exact SQ'|]. split; [|split].
    - intros a b B. rewrite N'. destruct (Nat.eqb_spec a i), (Nat.eqb_spec b j); cbn [andb]; try (apply Z; unfold before in *; lia).
      exfalso. unfold before in B. lia.
    - intros a B. rewrite N'. destruct (Nat.eqb_spec a i) as [->|]; cbn [andb]; [|apply D; unfold before in *; lia].
      destruct (Nat.eqb_spec i j); [exact Px|]. apply D. unfold before in *. lia.
    - intros a b Hab B.
      assert (forall k, (k <= b)%nat -> (a = i -> b = j -> k < b)%nat -> ment L' a k * ment L' b k = ment L a k * ment L b k) as SAME.
      { intros k Hk Hk2. rewrite !N'.
        destruct (Nat.eqb_spec a i) as [->|Na], (Nat.eqb_spec b i) as [->|Nb], (Nat.eqb_spec k j) as [->|Nk]; cbn [andb]; try reflexivity; exfalso; unfold before in B; lia. }
      destruct (Nat.eq_dec a i) as [->|Na]; [destruct (Nat.eq_dec b j) as [->|Nb]|].
      + cbn [rsum]. rewrite (rsum_ext _ (fun k => ment L i k * ment L j k)) by (intros k Hk; apply SAME; lia).
        rewrite !N', !Nat.eqb_refl. cbn [andb]. 
        replace (if (j =? i)%nat then x else ment L j j) with (if (i =? j)%nat then x else ment L j j) by (rewrite (Nat.eqb_sym i j); reflexivity).
        rewrite andb_true_r. rewrite (Nat.eqb_sym j i). rewrite Ex. unfold sum. cbn [Nat.add]. ring.
      + rewrite <- (G i b Hab) by (unfold before in *; lia). apply rsum_ext. intros k Hk. apply SAME; lia.
      + rewrite <- (G a b Hab) by (unfold before in *; lia). apply rsum_ext. intros k Hk. apply SAME; lia. }
  destruct (Nat.eqb_spec i j) as [<-|NE].
  - destruct (Rle_dec sum 0) as [F|F].
    + right. split; [reflexivity|]. intros Sy. apply (fail_indefinite i L P ltac:(lia) Sy). exact F.
    + left. apply Rnot_le_lt in F. destruct (mset_ok n L i i (sqrt sum) SQ) as (L' & E & SQ' & N'); [lia|lia|]. rewrite E. cbn [bind].
      exists L'. split; [reflexivity|]. apply (STEP (sqrt sum)); try assumption; [apply sqrt_lt_R0; assumption|apply sqrt_sqrt; lra].
  - left. rewrite (mget_ok n) by (assumption || lia). cbn [bind].
    assert (0 < ment L j j) as DP by (apply D; unfold before; lia). rewrite rdiv_ok by lra. cbn [bind].
    destruct (mset_ok n L i j (sum / ment L j j) SQ) as (L' & E & SQ' & N'); [lia|lia|]. rewrite E. cbn [bind].
    exists L'. split; [reflexivity|]. apply (STEP (sum / ment L j j)); try assumption; [exact I|field; lra].
Qed.

Definition chol_state (i j : nat) (st : option rmat) : Prop :=
  match st with Some L => partial i j L | None => symmetric n H -> indefinite end.

Lemma cholesky_ok : exists st, cholesky n H = Ok st /\ chol_state n 0 st.
Proof.
  unfold cholesky.
  destruct (for_up_inv (fun i st => chol_state i 0 st) (fun i st => for_up (i + 1) 0 (chol_cell H i) st) n 0 (Some (mzero n))) as (st & E & R).
  - split; [apply mzero_sq|]. split; [intros; apply mzero_ent|]. split; [intros a B; unfold before in B; lia|intros a b _ B; unfold before in B; lia].
  - intros i st _ Hi Hst.
    destruct (for_up_inv (fun j st => chol_state i j st) (chol_cell H i) (i + 1) 0 st) as (st' & E' & R').
    + exact Hst.
    + intros j [L|] _ Hj Q.
      * destruct (cell_ok i j L ltac:(lia) Q) as [(L' & -> & P')|(-> & P')]; [exists (Some L'); auto|exists None; auto].
      * exists None. split; [reflexivity|exact Q].
    + exists st'. split; [exact E'|]. destruct st' as [L|]; [|exact R']. cbn [chol_state] in *. destruct R' as (A & B & C & D).
      split; [exact A|]. unfold before in *. split; [intros; apply B; lia|]. split; [intros; apply C; lia|]. intros; apply D; lia.
  - exists st. split; [exact E|]. exact R.
Qed.

Lemma factor_definite L x : partial n 0 L -> symmetric n H -> (exists i, (i < n)%nat /\ x i <> 0) -> 0 < quad_form n H x.
Proof.
  intros P Sy (i0 & Hi0 & N0). pose proof P as (SQ & Z & D & G).
  assert (forall a b, (a < n)%nat -> (b < n)%nat -> ment H a b = rsum (fun k => ment L a k * ment L b k) n) as HE.
  { intros a b Ha Hb. destruct (Nat.le_ge_cases b a).
    - symmetry. apply (gram_row n 0 L a b P); unfold before; lia.
    - rewrite Sy by assumption. rewrite <- (gram_row n 0 L b a P) by (unfold before; lia). apply rsum_ext. intros. ring. }
  assert (quad_form n H x = rsum (fun k => rsum (fun a => x a * ment L a k) n * rsum (fun a => x a * ment L a k) n) n) as ->.
  { rewrite <- (gram_form (ment L) x). apply rsum_ext. intros a Ha. apply rsum_ext. intros b Hb. rewrite HE by assumption. reflexivity. }
  (* the last non-zero component *)
  assert (exists k, (k < n)%nat /\ x k <> 0 /\ forall a, (k < a < n)%nat -> x a = 0) as (k & Hk & Nk & Lk).
  { clear - Hi0 N0. assert (forall m, (m <= n)%nat -> (exists i, (i < m)%nat /\ x i <> 0) -> exists k, (k < m)%nat /\ x k <> 0 /\ forall a, (k < a < m)%nat -> x a = 0) as Q.
    { induction m; intros Hm (i & Hi & N); [lia|]. destruct (Req_EM_T (x m) 0) as [E|E].
      - assert (i <> m) by congruence. destruct (IHm ltac:(lia)) as (k & A & B & C); [exists i; split; [lia|assumption]|].
        exists k. split; [lia|]. split; [assumption|]. intros a Ha. destruct (Nat.eq_dec a m) as [->|]; [assumption|apply C; lia].
      - exists m. split; [lia|]. split; [assumption|]. intros; lia. }
    apply Q; [lia|]. exists i0. auto. }
  apply (rsum_pos_member _ n k Hk); [intros; apply Rle_0_sqr|].
  rewrite (rsum_point _ n k Hk).
  - specialize (D k ltac:(unfold before; lia)). apply Rsqr_pos_lt. apply Rmult_integral_contrapositive_currified; lra.
  - intros a Ha Na. destruct (Nat.lt_ge_cases a k); [rewrite (Z a k) by (right; lia); ring|]. rewrite Lk by lia. ring.
Qed.
End Chol.

Lemma cholesky_top : forall n H, msq n H ->
  exists st, cholesky n H = Ok st /\
  (forall L, st = Some L -> msq n L /\ lower_positive n L /\
     (forall i j, (i < n)%nat -> (j <= i)%nat -> rsum (fun k => ment L i k * ment L j k) n = ment H i j)) /\
  (symmetric n H -> (st <> None <-> positive_definite n H)).
Proof.
  intros n H HS. destruct (cholesky_ok n H HS) as (st & E & R). exists st. split; [exact E|]. split.
  - intros L ->. pose proof R as (SQ & Z & D & G). split; [exact SQ|]. split.
    + split; intros; [apply Z; right; assumption|apply D; unfold before; lia].
    + intros i j Hi Hj. apply (gram_row n H n 0 L i j R); unfold before; lia.
  - intros Sy. split.
    + intros NN x Hx. destruct st as [L|]; [|contradiction]. apply (factor_definite n H L x R Sy Hx).
    + intros PD ->. destruct (R Sy) as (x & Hx & Q). specialize (PD x Hx). lra.
Qed.

(** ** the triangular systems *)
Lemma forward_ok n L b y : msq n L -> lower_positive n L -> length b = n -> length y = n ->
  exists y', forward_subst n L b y = Ok y' /\ length y' = n /\ forall i, (i < n)%nat -> rsum (fun k => ment L i k * vat y' k) n = vat b i.
Proof.
  intros SQ (LT & DP) Hb Hy. unfold forward_subst.
  destruct (for_up_inv (fun i y => length y = n /\ forall a, (a < i)%nat -> rsum (fun k => ment L a k * vat y k) (S a) = vat b a) (forward_row L b) n 0 y) as (y' & E & Ly & R).
  - split; [assumption|intros; lia].
  - intros i y1 _ Hi (L1 & R1). unfold forward_row. rewrite (get_ok _ _ 0) by lia. cbn [bind].
    rewrite (sub_loop _ (fun k => ment L i k * vat y1 k)) by (intros k s Hk; rewrite (mget_ok n) by (assumption || lia); rewrite (get_ok _ _ 0) by lia; reflexivity).
    cbn [bind]. rewrite (mget_ok n) by (assumption || lia). cbn [bind]. specialize (DP i Hi). rewrite rdiv_ok by lra. cbn [bind].
    match goal with |- exists s', set_nth y1 i ?x = _ /\ _ => destruct (set_nth_ok y1 i x) as (y2 & E2 & L2 & N2) end; [lia|].
    exists y2. split; [exact E2|]. split; [lia|]. intros a Ha.
    assert (forall k, (k <> i)%nat -> vat y2 k = vat y1 k) as SAME by (intros k Hk; unfold vat; rewrite N2; destruct (Nat.eqb_spec k i); [contradiction|reflexivity]).
    destruct (Nat.eq_dec a i) as [->|].
    + cbn [rsum]. rewrite (rsum_ext _ (fun k => ment L i k * vat y1 k)) by (intros; rewrite SAME by lia; reflexivity).
      unfold vat at 2. rewrite N2, Nat.eqb_refl. cbn [Nat.add]. unfold vat. field. lra.
    + rewrite <- (R1 a) by lia. apply rsum_ext. intros k Hk. rewrite SAME by lia. reflexivity.
  - exists y'. split; [exact E|]. split; [exact Ly|]. intros i Hi. rewrite <- (R i) by lia. apply rsum_cut; [lia|].
    intros k Hk. rewrite LT by lia. ring.
Qed.

Lemma backward_ok n L y x : msq n L -> lower_positive n L -> length y = n -> length x = n ->
  exists x', backward_subst n L y x = Ok x' /\ length x' = n /\ forall i, (i < n)%nat -> rsum (fun k => ment L k i * vat x' k) n = vat y i.
Proof.
  intros SQ (LT & DP) Hy Hx. unfold backward_subst.
  destruct (for_up_inv (fun c x => length x = n /\ forall a, (n - c <= a < n)%nat -> rsum (fun k => ment L k a * vat x k) n = vat y a)
    (fun c x => backward_row n L y (n - 1 - c) x) n 0 x) as (x' & E & Lx & R).
  - split; [assumption|intros; lia].
  - intros c x1 _ Hc (L1 & R1). set (i := (n - 1 - c)%nat). assert (i < n)%nat as Hi by (unfold i; lia).
    unfold backward_row. rewrite (get_ok _ _ 0) by lia. cbn [bind].
    rewrite (sub_loop _ (fun k => ment L k i * vat x1 k)) by (intros k s Hk; rewrite (mget_ok n) by (assumption || lia); rewrite (get_ok _ _ 0) by lia; reflexivity).
    cbn [bind]. rewrite (mget_ok n) by (assumption || lia). cbn [bind]. specialize (DP i Hi). rewrite rdiv_ok by lra. cbn [bind].
    match goal with |- exists s', set_nth x1 i ?x = _ /\ _ => destruct (set_nth_ok x1 i x) as (x2 & E2 & L2 & N2) end; [lia|].
    exists x2. split; [exact E2|]. split; [lia|]. intros a Ha.
    assert (forall k, (k <> i)%nat -> vat x2 k = vat x1 k) as SAME by (intros k Hk; unfold vat; rewrite N2; destruct (Nat.eqb_spec k i); [contradiction|reflexivity]).
    destruct (Nat.eq_dec a i) as [->|].
    + replace n with (S i + (n - (i + 1)))%nat at 1 by lia. rewrite rsum_split. cbn [rsum].
      rewrite rsum_zero by (intros k Hk; rewrite LT by lia; ring).
      rewrite (rsum_ext _ (fun k => ment L (i + 1 + k) i * vat x1 (i + 1 + k))) by (intros k Hk; rewrite SAME by lia; replace (S i + k)%nat with (i + 1 + k)%nat by lia; reflexivity).
      unfold vat at 1. rewrite N2, Nat.eqb_refl. unfold vat. field. lra.
    + rewrite <- (R1 a) by lia. apply rsum_ext. intros k Hk. destruct (Nat.eq_dec k i) as [->|]; [rewrite LT by lia; ring|]. rewrite SAME by lia. reflexivity.
  - exists x'. split; [exact E|]. split; [exact Lx|]. intros i Hi. apply R. lia.
Qed.

Lemma triangular_dot n L b y x : (forall i, (i < n)%nat -> rsum (fun k => ment L i k * vat y k) n = vat b i) ->
  (forall i, (i < n)%nat -> rsum (fun k => ment L k i * vat x k) n = vat y i) ->
  rsum (fun i => vat b i * vat x i) n = rsum (fun k => vat y k * vat y k) n.
Proof.
  intros F B. transitivity (rsum (fun i => rsum (fun k => ment L i k * vat y k * vat x i) n) n).
  - apply rsum_ext. intros i Hi. rewrite <- F, rsum_scale_r by assumption. reflexivity.
  - rewrite rsum_swap. apply rsum_ext. intros k Hk. rewrite <- (B k Hk) at 2. rewrite <- rsum_scale. apply rsum_ext. intros. ring.
Qed.

Lemma solve_ok n y0 H b x : msq n H -> length b = n -> length x = n -> length y0 = n ->
  exists ok x', solve_linear n y0 H b x = Ok (ok, x') /\ length x' = n /\ (ok = false -> x' = x) /\
    (ok = true -> 0 <= rsum (fun i => vat b i * vat x' i) n) /\
    (symmetric n H -> (ok = true -> solves n H x' b) /\ (ok = true <-> positive_definite n H)).
Proof.
  intros HS Hb Hx Hy. unfold solve_linear. destruct (cholesky_top n H HS) as (st & -> & A & B). cbn [bind]. destruct st as [L|].
  - destruct (A L eq_refl) as (SQ & LP & G). destruct (forward_ok n L b y0 SQ LP Hb Hy) as (y & -> & Ly & Fy). cbn [bind].
    destruct (backward_ok n L y x SQ LP Ly Hx) as (x' & -> & Lx & Bx). cbn [bind]. exists true, x'. split; [reflexivity|]. split; [exact Lx|].
    split; [discriminate|]. split; [intros _; rewrite (triangular_dot n L b y x' Fy Bx); apply rsum_nonneg; intros; apply Rle_0_sqr|].
    intros Sy. split; [|rewrite <- (B Sy); split; [discriminate|reflexivity]].
    intros _ i Hi. transitivity (rsum (fun j => rsum (fun k => ment L i k * ment L j k) n * vat x' j) n).
    + apply rsum_ext. intros j Hj. f_equal. destruct (Nat.le_ge_cases j i); [rewrite G by assumption; reflexivity|].
      rewrite Sy, <- (G j i) by assumption. apply rsum_ext. intros. ring.
    + transitivity (rsum (fun j => rsum (fun k => ment L i k * (ment L j k * vat x' j)) n) n).
      { apply rsum_ext. intros j Hj. rewrite <- rsum_scale_r. apply rsum_ext. intros. ring. }
      rewrite rsum_swap, <- (Fy i Hi). apply rsum_ext. intros k Hk. rewrite rsum_scale, <- (Bx k Hk). reflexivity.
  - exists false, x. split; [reflexivity|]. split; [exact Hx|]. split; [reflexivity|]. split; [discriminate|].
    intros Sy. split; [discriminate|]. rewrite <- (B Sy). split; [discriminate|]. intros NN. exfalso. apply NN. reflexivity.
Qed.
