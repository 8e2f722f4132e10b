(** Rounding errors of basis functions and of evaluation (C232-C234). *)
From Coq Require Import List ZArith QArith Qcanon Bool Lia Lqa.
From Verif Require Import Base BaseFacts LoopFacts ModelVec ModelAabb ModelNurbs ModelSurface SpecNurbs SpecCurve
  ModelRound SpecRound.
Import ListNotations.
Open Scope Qc_scope.

Lemma mul_le a a' b b' : 0 <= a -> a <= a' -> 0 <= b -> b <= b' -> a * b <= a' * b'.
Proof. intros. qc_nra. Qed.
Lemma mul_nonneg a b : 0 <= a -> 0 <= b -> 0 <= a * b.
Proof. intros. qc_nra. Qed.
Lemma mul_le_l a b b' : 0 <= a -> b <= b' -> a * b <= a * b'.
Proof. intros. qc_nra. Qed.
Lemma Qcinv_pos x : 0 < x -> 0 < / x.
Proof.
  intros H. assert (x <> 0) by (intros E; rewrite E in H; discriminate H).
  destruct (Qc_neq_or (/ x) 0) as [L|L]; [intros E; assert (x * / x = 1) by (apply Qcmult_inv_r; assumption); rewrite E in *; qc_lra| |exact L].
  exfalso. assert (x * / x = 1) by (apply Qcmult_inv_r; assumption). qc_nra.
Qed.
Lemma Qcabs_case x (P : Qc -> Prop) : (0 <= x -> P x) -> (x <= 0 -> P (- x)) -> P (Qcabs x).
Proof. intros A B. unfold Qcabs. destruct (x <? 0) eqn:E; [apply B|apply A]; qcb; [apply Qclt_le_weak|]; assumption. Qed.
Lemma Qcabs_nonneg x : 0 <= Qcabs x.
Proof. apply Qcabs_case; intros; qc_lra. Qed.
Lemma Qcle_Qcabs x : x <= Qcabs x.
Proof. apply Qcabs_case; intros; qc_lra. Qed.
Lemma Qcopp_Qcabs x : - x <= Qcabs x.
Proof. apply Qcabs_case; intros; qc_lra. Qed.
Lemma lt_le (a b : Qc) : a < b -> a <= b. Proof. apply Qclt_le_weak. Qed.

(** ** Powers *)
Section Pow.
Variable t : Qc.
Hypothesis T0 : 0 < t.
Hypothesis T1 : t <= 1.
Lemma pw_S k : t ^ S k = t * t ^ k. Proof. reflexivity. Qed.
Lemma pw_pos k : 0 < t ^ k.
Proof. induction k; [reflexivity|]. rewrite pw_S. qc_nra. Qed.
Lemma pw_le1 k : t ^ k <= 1.
Proof. induction k; [apply Qcle_refl|]. rewrite pw_S. pose proof (pw_pos k). qc_nra. Qed.
Lemma pw_add a b : t ^ (a + b) = t ^ a * t ^ b.
Proof. induction a; cbn [Nat.add]; [change (t ^ 0) with 1; ring|]. rewrite !pw_S, IHa. ring. Qed.
Lemma pw_mono a b : (a <= b)%nat -> t ^ b <= t ^ a.
Proof.
  intros H. replace b with (a + (b - a))%nat by lia. rewrite pw_add.
  pose proof (pw_pos a). pose proof (pw_le1 (b - a)). pose proof (pw_pos (b - a)). qc_nra.
Qed.

(** ** Relative closeness of non-negative numbers *)
Definition close (k : nat) (x y : Qc) : Prop := 0 <= x /\ t ^ k * x <= y /\ t ^ k * y <= x.
Lemma close_nonneg k x y : close k x y -> 0 <= y.
Proof. intros (H & A & _). pose proof (pw_pos k). qc_nra. Qed.
Lemma close_refl k x : 0 <= x -> close k x x.
Proof. intros H. pose proof (pw_le1 k). pose proof (pw_pos k). split; [exact H|]. split; qc_nra. Qed.
Lemma close_mono k l x y : (k <= l)%nat -> close k x y -> close l x y.
Proof.
  intros H C. pose proof (close_nonneg _ _ _ C) as Y. destruct C as (X & A & B). pose proof (pw_mono _ _ H).
  split; [exact X|]. split; qc_nra.
Qed.
Lemma close_add k a a' b b' : close k a a' -> close k b b' -> close k (a + b) (a' + b').
Proof. intros (A & B & C) (D & E & F). split; [qc_lra|]. split; qc_lra. Qed.
Lemma close_mul k l a a' b b' : close k a a' -> close l b b' -> close (k + l) (a * b) (a' * b').
Proof.
  intros C D. pose proof (close_nonneg _ _ _ C) as A'. pose proof (close_nonneg _ _ _ D) as B'.
  destruct C as (A & C1 & C2), D as (B & D1 & D2). unfold close. rewrite pw_add.
  pose proof (lt_le _ _ (pw_pos k)) as PK. pose proof (lt_le _ _ (pw_pos l)) as PL.
  split; [apply mul_nonneg; assumption|]. split.
  - replace (t ^ k * t ^ l * (a * b)) with ((t ^ k * a) * (t ^ l * b)) by ring. apply mul_le; try assumption; apply mul_nonneg; assumption.
  - replace (t ^ k * t ^ l * (a' * b')) with ((t ^ k * a') * (t ^ l * b')) by ring. apply mul_le; try assumption; apply mul_nonneg; assumption.
Qed.
Lemma close_pos k x y : close k x y -> 0 < x -> 0 < y.
Proof. intros (_ & A & _) X. pose proof (pw_pos k). qc_nra. Qed.
Lemma close_inv k x y : close k x y -> 0 < x -> close k (/ x) (/ y).
Proof.
  intros C X. pose proof (close_pos _ _ _ C X) as Y. destruct C as (_ & A & B).
  assert (x <> 0) as NX by (intros E; rewrite E in X; discriminate X).
  assert (y <> 0) as NY by (intros E; rewrite E in Y; discriminate Y).
  assert (0 < / x) as IX by (apply Qcinv_pos; exact X). assert (0 < / y) as IY by (apply Qcinv_pos; exact Y).
  assert (0 <= / x * / y) as IXY by (apply mul_nonneg; apply lt_le; assumption).
  split; [apply lt_le; exact IX|]. split.
  - replace (t ^ k * / x) with ((t ^ k * y) * (/ x * / y)) by (field; split; assumption).
    replace (/ y) with (x * (/ x * / y)) at 2 by (field; split; assumption). apply Qcmult_le_compat_r; assumption.
  - replace (t ^ k * / y) with ((t ^ k * x) * (/ x * / y)) by (field; split; assumption).
    replace (/ x) with (y * (/ x * / y)) at 2 by (field; split; assumption). apply Qcmult_le_compat_r; assumption.
Qed.
Lemma close_div k l a a' b b' : close k a a' -> close l b b' -> 0 < b -> close (k + l) (a / b) (a' / b').
Proof. intros C D B. apply close_mul; [exact C|]. apply close_inv; assumption. Qed.

(** One rounding. *)
Definition rounded (y z : Qc) : Prop := Qcabs (z - y) <= (1 - t) * Qcabs y.
Lemma rounded_lr y z : rounded y z -> exists a, 0 <= a /\ (a = y \/ a = - y) /\ y <= a /\ - y <= a /\
  z - y <= (1 - t) * a /\ y - z <= (1 - t) * a.
Proof.
  unfold rounded. intros H. pose proof (Qcle_trans _ _ _ (Qcle_Qcabs (z - y)) H) as H1.
  pose proof (Qcle_trans _ _ _ (Qcopp_Qcabs _) H) as H2.
  exists (Qcabs y). split; [apply Qcabs_nonneg|]. split.
  - apply (Qcabs_case y (fun a => a = y \/ a = - y)); auto.
  - split; [apply Qcle_Qcabs|]. split; [apply Qcopp_Qcabs|]. split; [exact H1|]. qc_lra.
Qed.
Lemma close_rounded k x y z : close k x y -> rounded y z -> close (S k) x z.
Proof.
  intros C R. pose proof (close_nonneg _ _ _ C) as Y. destruct C as (X & A & B).
  destruct (rounded_lr _ _ R) as (a & A0 & AE & A1 & A2 & R1 & R2). assert (a = y) as -> by (destruct AE; [assumption|qc_lra]).
  unfold close. rewrite pw_S. pose proof (pw_pos k) as PK. assert (t * y <= z) as Z1 by qc_lra.
  assert (t * z <= y) as Z2. { assert (z <= (1 + (1 - t)) * y) by qc_lra. assert (0 <= (1 - t) * (1 - t) * y) by (apply mul_nonneg; [apply Qc_sq_nonneg|exact Y]). qc_nra. }
  split; [exact X|]. split.
  - apply Qcle_trans with (t * y); [|exact Z1]. replace (t * t ^ k * x) with (t * (t ^ k * x)) by ring. qc_nra.
  - replace (t * t ^ k * z) with (t ^ k * (t * z)) by ring. apply Qcle_trans with (t ^ k * y); [|exact B].
    apply mul_le; [apply lt_le; exact PK|apply Qcle_refl| |exact Z2].
    apply mul_nonneg; [apply lt_le; exact T0|]. apply Qcle_trans with (t * y); [|exact Z1]. apply mul_nonneg; [apply lt_le; exact T0|exact Y].
Qed.

(** ** Absolute closeness relative to a size *)
Definition near (k : nat) (x M y : Qc) : Prop :=
  x <= M /\ - x <= M /\ t ^ k * (y - x) <= (1 - t ^ k) * M /\ t ^ k * (x - y) <= (1 - t ^ k) * M.
Lemma near_size k x M y : near k x M y -> 0 <= M.
Proof. intros (A & B & _). qc_lra. Qed.
Lemma near_refl k x M : x <= M -> - x <= M -> near k x M x.
Proof.
  intros A B. split; [exact A|]. split; [exact B|]. pose proof (pw_le1 k).
  assert (0 <= (1 - t ^ k) * M) by (apply mul_nonneg; qc_lra). split; qc_lra.
Qed.
Lemma near_mono k l x M y : (k <= l)%nat -> near k x M y -> near l x M y.
Proof.
  intros H N. pose proof (near_size _ _ _ _ N) as M0. destruct N as (A & B & C & D). split; [exact A|]. split; [exact B|].
  replace l with (k + (l - k))%nat by lia. rewrite pw_add. set (a := t ^ k) in *. set (b := t ^ (l - k)).
  assert (0 < b) as B0 by apply pw_pos. assert (b <= 1) as B1 by apply pw_le1.
  assert (0 <= (1 - b) * M) by (apply mul_nonneg; qc_lra).
  split.
  - assert (b * (a * (y - x)) <= b * ((1 - a) * M)) by qc_nra. qc_lra.
  - assert (b * (a * (x - y)) <= b * ((1 - a) * M)) by qc_nra. qc_lra.
Qed.
Lemma near_add k x M y x' M' y' : near k x M y -> near k x' M' y' -> near k (x + x') (M + M') (y + y').
Proof. intros (A & B & C & D) (E & F & G & H). split; [qc_lra|]. split; [qc_lra|]. split; qc_lra. Qed.
Lemma near_rounded k x M y z : near k x M y -> rounded y z -> near (S k) x M z.
Proof.
  intros N R. pose proof (near_size _ _ _ _ N) as M0. destruct N as (A & B & C & D).
  destruct (rounded_lr _ _ R) as (a & A0 & AE & A1 & A2 & R1 & R2).
  unfold near. rewrite pw_S. pose proof (pw_pos k) as PK. set (c := t ^ k) in *. pose proof (lt_le _ _ PK) as PK0.
  assert (c * a <= M) as CA.
  { assert (c * x <= c * M) by (apply mul_le_l; assumption). assert (c * - x <= c * M) by (apply mul_le_l; assumption).
    destruct AE as [-> | ->]; qc_lra. }
  assert (0 <= 1 - t) as U0 by qc_lra.
  assert (c * ((1 - t) * a) <= (1 - t) * M) as CU. { replace (c * ((1 - t) * a)) with ((1 - t) * (c * a)) by ring. apply mul_le_l; assumption. }
  assert (c * (z - y) <= c * ((1 - t) * a)) as E1 by (apply mul_le_l; [apply lt_le; exact PK|exact R1]).
  assert (c * (y - z) <= c * ((1 - t) * a)) as E2 by (apply mul_le_l; [apply lt_le; exact PK|exact R2]).
  assert (0 <= (1 - t) * (1 - t) * M) as SQ by (apply mul_nonneg; [apply Qc_sq_nonneg|exact M0]).
  split; [exact A|]. split; [exact B|]. split.
  - assert (t * (c * (z - x)) <= t * ((1 - t) * M + (1 - c) * M)) by (apply mul_le_l; [apply lt_le; exact T0|qc_lra]). qc_lra.
  - assert (t * (c * (x - z)) <= t * ((1 - t) * M + (1 - c) * M)) by (apply mul_le_l; [apply lt_le; exact T0|qc_lra]). qc_lra.
Qed.
Lemma near_scale l k b b' x M y : close l b b' -> near k x M y -> near (l + k) (b * x) (b * M) (b' * y).
Proof.
  intros C N. pose proof (near_size _ _ _ _ N) as M0. pose proof (close_nonneg _ _ _ C) as B'. destruct N as (A & B & D & E), C as (B0 & C1 & C2).
  unfold near. rewrite pw_add. pose proof (lt_le _ _ (pw_pos k)) as PK. pose proof (lt_le _ _ (pw_pos l)) as PL.
  pose proof (pw_le1 l) as L1. pose proof (pw_le1 k) as K1.
  set (c := t ^ l) in *. set (a := t ^ k) in *.
  assert (0 <= 1 - c) as C0 by qc_lra. assert (0 <= 1 - a) as A0 by qc_lra.
  assert (0 <= (1 - a) * M) as AM by (apply mul_nonneg; assumption).
  assert (c * (b' * (a * (y - x))) <= b * ((1 - a) * M)) as F1.
  { apply Qcle_trans with ((c * b') * ((1 - a) * M)).
    - replace (c * (b' * (a * (y - x)))) with ((c * b') * (a * (y - x))) by ring. apply mul_le_l; [apply mul_nonneg; assumption|exact D].
    - apply Qcmult_le_compat_r; assumption. }
  assert (c * (b' * (a * (x - y))) <= b * ((1 - a) * M)) as F2.
  { apply Qcle_trans with ((c * b') * ((1 - a) * M)).
    - replace (c * (b' * (a * (x - y)))) with ((c * b') * (a * (x - y))) by ring. apply mul_le_l; [apply mul_nonneg; assumption|exact E].
    - apply Qcmult_le_compat_r; assumption. }
  assert (c * (b' - b) <= (1 - c) * b) as G1 by qc_lra.
  assert (c * (b - b') <= (1 - c) * b) as G2.
  { assert (0 <= (1 - c) * (1 - c) * b) by (apply mul_nonneg; [apply Qc_sq_nonneg|exact B0]).
    assert (c * (c * b) <= c * b') by (apply mul_le_l; assumption). qc_lra. }
  assert (0 <= (1 - c) * b) as G0 by (apply mul_nonneg; assumption).
  assert (forall d e, (d = c * (b' - b) \/ d = c * (b - b')) -> (e = x \/ e = - x) -> d * e <= (1 - c) * b * M) as G.
  { assert (forall d e, - ((1 - c) * b) <= d -> d <= (1 - c) * b -> - M <= e -> e <= M -> d * e <= (1 - c) * b * M) as GG by (intros; qc_nra).
    assert (- ((1 - c) * b) <= c * (b' - b)) as I1 by (clear - G2; qc_lra). assert (- ((1 - c) * b) <= c * (b - b')) as I2 by (clear - G1; qc_lra).
    assert (- M <= x) as I3 by (clear - B; qc_lra). assert (- M <= - x) as I4 by (clear - A; qc_lra).
    intros d e [-> | ->] [-> | ->]; apply GG; assumption. }
  assert (a * (c * (b' - b) * x) <= a * ((1 - c) * b * M)) as H1 by (apply mul_le_l; [exact PK|apply G; auto]).
  assert (a * (c * (b' - b) * - x) <= a * ((1 - c) * b * M)) as H2 by (apply mul_le_l; [exact PK|apply G; auto]).
  split; [apply mul_le_l; assumption|]. split; [replace (- (b * x)) with (b * - x) by ring; apply mul_le_l; assumption|]. split.
  - replace (c * a * (b' * y - b * x)) with (c * (b' * (a * (y - x))) + a * (c * (b' - b) * x)) by ring.
    replace ((1 - c * a) * (b * M)) with (b * ((1 - a) * M) + a * ((1 - c) * b * M)) by ring. apply Qcplus_le_compat; assumption.
  - replace (c * a * (b * x - b' * y)) with (c * (b' * (a * (x - y))) + a * (c * (b' - b) * - x)) by ring.
    replace ((1 - c * a) * (b * M)) with (b * ((1 - a) * M) + a * ((1 - c) * b * M)) by ring. apply Qcplus_le_compat; assumption.
Qed.
Lemma near_div k l x M y w w' : near k x M y -> close l w w' -> 0 < w -> near (k + l) (x / w) (M / w) (y / w').
Proof.
  intros N C W. rewrite Nat.add_comm. unfold Qcdiv. rewrite (Qcmult_comm x), (Qcmult_comm M), (Qcmult_comm y).
  apply near_scale; [apply close_inv; assumption|exact N].
Qed.
Lemma near_differs u k x M y B : t = 1 - u -> near k x M y -> M <= B -> differs_at_most u k B x y.
Proof.
  intros Tu (_ & _ & C & D) MB. unfold differs_at_most. rewrite <- Tu. pose proof (pw_le1 k).
  assert ((1 - t ^ k) * M <= (1 - t ^ k) * B) by (apply mul_le_l; [qc_lra|exact MB]).
  apply (Qcabs_case (y - x) (fun a => t ^ k * a <= _)); intros _; qc_lra.
Qed.
End Pow.

(** ** Runs that follow each other *)

(** The rounded run either stays related to the exact one or left the range. *)
Definition follows {A B} (R : A -> B -> Prop) (x : res A) (y : res B) : Prop :=
  match x, y with
  | Ok a, Ok b => R a b
  | Ok _, Throw e => e = ERuntime
  | Ok _, UB => False
  | _, _ => True
  end.
Lemma follows_bind {A B A' B'} (R : A -> B -> Prop) (S : A' -> B' -> Prop) x y f g :
  follows R x y -> (forall a b, R a b -> follows S (f a) (g b)) -> follows S (bind x f) (bind y g).
Proof.
  destruct x as [a|e|]; cbn; [|intros _ _; destruct (bind y g); exact I..].
  destruct y as [b|e'|]; cbn; intros H K; [apply K, H| |destruct H]. subst e'. destruct (f a); cbn; auto.
Qed.
Lemma follows_mono {A B} (R S : A -> B -> Prop) x y : (forall a b, R a b -> S a b) -> follows R x y -> follows S x y.
Proof. intros H. destruct x, y; cbn; auto. Qed.
Lemma follows_for {A B} (R : nat -> A -> B -> Prop) f g count : forall start a b,
  R start a b -> (forall i a b, (start <= i)%nat -> (i < start + count)%nat -> R i a b -> follows (R (S i)) (f i a) (g i b)) ->
  follows (R (start + count)%nat) (for_up count start f a) (for_up count start g b).
Proof.
  induction count as [|c IH]; intros start a b H K; cbn [for_up].
  - rewrite Nat.add_0_r. exact H.
  - eapply follows_bind; [apply K; [lia|lia|exact H]|]. intros a' b' H'. replace (start + S c)%nat with (S start + c)%nat by lia.
    apply IH; [exact H'|]. intros i x y Hi Hj. apply K; lia.
Qed.
Lemma follows_bind_same {A A' B'} (S : A' -> B' -> Prop) (x : res A) f g :
  (forall a, x = Ok a -> follows S (f a) (g a)) -> follows S (bind x f) (bind x g).
Proof. destruct x; cbn; auto. Qed.

(** lists related entry by entry, as far as [n] *)
Definition lists (R : nat -> Qc -> Qc -> Prop) (l l' : list Qc) : Prop :=
  length l = length l' /\ forall i, (i < length l)%nat -> R i (nth i l 0) (nth i l' 0).
Lemma follows_get R l l' i : lists R l l' -> follows (R i) (get l i) (get l' i).
Proof.
  intros (L & H). destruct (Nat.lt_ge_cases i (length l)) as [G|G].
  - rewrite (get_ok l i 0), (get_ok l' i 0) by lia. apply H, G.
  - unfold get. rewrite (proj2 (nth_error_None l i)) by lia. exact I.
Qed.
Lemma follows_set R (R' : nat -> Qc -> Qc -> Prop) l l' i x x' : lists R l l' -> (forall j y y', j <> i -> R j y y' -> R' j y y') -> R' i x x' ->
  follows (lists R') (set_nth l i x) (set_nth l' i x').
Proof.
  intros (L & H) K X. destruct (Nat.lt_ge_cases i (length l)) as [G|G].
  - destruct (set_nth_ok l i x) as (m & E & Lm & Gm); [exact G|]. destruct (set_nth_ok l' i x') as (m' & E' & Lm' & Gm'); [lia|].
    rewrite E, E'. cbn. split; [lia|]. intros j Hj. rewrite Gm, Gm'. destruct (Nat.eqb_spec j i) as [->|N]; [exact X|]. apply K; [exact N|]. apply H. lia.
  - enough (set_nth l i x = UB) as -> by exact I. clear - G. revert i G. induction l as [|y l IH]; intros [|i] G; cbn in *; try reflexivity; [lia|].
    rewrite IH by lia. reflexivity.
Qed.

Section Sim.
Variables (eps : Qc) (fl : nat -> Qc -> option Qc).
Hypothesis RF : rounds eps fl.
Notation t := (1 - eps).
Lemma t_pos : 0 < t. Proof. destruct RF as (A & B & _). qc_lra. Qed.
Lemma t_le1 : t <= 1. Proof. destruct RF as (A & B & _). qc_lra. Qed.
Local Hint Resolve t_pos t_le1 : core.

Lemma rnd_rounded o x y : fl o x = Some y -> rounded t x y.
Proof. destruct RF as (_ & _ & H). intros E. unfold rounded. replace (1 - t) with eps by ring. apply (H o), E. Qed.

Lemma follows_rnd_close {A B} (S : A -> B -> Prop) o k x y (X : res A) g :
  close t k x y -> (forall z, close t (Datatypes.S k) x z -> follows S X (g z)) -> follows S X (bind (rnd fl o y) g).
Proof.
  intros C K. unfold rnd. destruct (fl o y) as [z|] eqn:E; cbn [bind].
  - apply K. eapply close_rounded; eauto using rnd_rounded.
  - destruct X; cbn; auto.
Qed.
Lemma follows_rnd_near {A B} (S : A -> B -> Prop) o k x M y (X : res A) g :
  near t k x M y -> (forall z, near t (Datatypes.S k) x M z -> follows S X (g z)) -> follows S X (bind (rnd fl o y) g).
Proof.
  intros C K. unfold rnd. destruct (fl o y) as [z|] eqn:E; cbn [bind].
  - apply K. eapply near_rounded; eauto using rnd_rounded.
  - destruct X; cbn; auto.
Qed.

(** ** basis_funs *)
Definition inner_rel (j : nat) (r : nat) (a b : list Qc * Qc) : Prop :=
  lists (fun i x y => close t (if Nat.ltb i r then 6 * j else if Nat.ltb i j then 6 * (j - 1) else 0) x y) (fst a) (fst b) /\
  close t (6 * j - 1) (snd a) (snd b).

Lemma inner_follows j lft rgt lft' rgt' r st st' : (1 <= j)%nat -> (r < j)%nat ->
  lists (fun i x y => close t 1 x y) lft lft' -> lists (fun i x y => close t 1 x y) rgt rgt' ->
  inner_rel j r st st' -> follows (inner_rel j (S r)) (basis_inner j lft rgt r st) (fbasis_inner fl j lft' rgt' r st').
Proof.
  intros Hj Hr HL HR. destruct st as [N saved], st' as [N' saved']. intros (HN & HS). cbn [fst snd] in HN, HS.
  unfold basis_inner, fbasis_inner.
  eapply follows_bind; [apply (follows_get _ _ _ r HN)|]. cbn beta. intros nr nr' Hn.
  destruct (Nat.ltb_spec r r) as [|_]; [lia|]. destruct (Nat.ltb_spec r j) as [_|]; [|lia].
  eapply follows_bind; [apply (follows_get _ _ _ _ HR)|]. cbn beta. intros rr rr' Hrr.
  eapply follows_bind; [apply (follows_get _ _ _ _ HL)|]. cbn beta. intros lj lj' Hlj.
  eapply follows_rnd_close; [apply (close_add t 1 _ _ _ _ Hrr Hlj)|]. intros d Hd.
  unfold qdiv. destruct (Qceqb_spec (rr + lj) 0) as [Z|NZ]; [exact I|]. cbn [bind].
  assert (0 < rr + lj) as POS.
  { destruct Hd as (D0 & _). destruct (Qcle_lt_or_eq _ _ D0) as [|E]; [assumption|]. exfalso. apply NZ. symmetry. exact E. }
  pose proof (close_pos t t_pos _ _ _ Hd POS) as DPOS.
  destruct (Qceqb_spec d 0) as [Z|_]; [rewrite Z in DPOS; discriminate DPOS|]. cbn [bind].
  eapply follows_rnd_close; [apply (close_div t t_pos _ _ _ _ _ _ Hn Hd POS)|]. intros temp Ht.
  eapply follows_rnd_close; [apply (close_mul t t_pos _ _ _ _ _ _ Hrr Ht)|]. intros m Hm.
  eapply follows_rnd_close.
  { apply (close_add t (6 * j - 1)); [exact HS|]. eapply close_mono; [exact t_pos|exact t_le1| |exact Hm]. lia. }
  intros n Hn2.
  eapply follows_bind.
  { apply (follows_set _ (fun i x y => close t (if Nat.ltb i (S r) then 6 * j else if Nat.ltb i j then 6 * (j - 1) else 0) x y) _ _ r _ _ HN).
    - intros i y y' Hi Hc. destruct (Nat.ltb_spec i (S r)), (Nat.ltb_spec i r); try exact Hc; lia.
    - destruct (Nat.ltb_spec r (S r)); [|lia]. replace (6 * j)%nat with (S (6 * j - 1)) by lia. exact Hn2. }
  intros M M' HM.
  eapply follows_rnd_close; [apply (close_mul t t_pos _ _ _ _ _ _ Hlj Ht)|]. intros s Hs.
  split; [exact HM|]. cbn [snd]. eapply close_mono; [exact t_pos|exact t_le1| |exact Hs]. lia.
Qed.

Definition outer_rel (j : nat) (a b : list Qc * list Qc * list Qc) : Prop :=
  let '(N, l, r) := a in let '(N', l', r') := b in
  lists (fun i x y => close t (if Nat.ltb i j then 6 * (j - 1) else 0) x y) N N' /\
  lists (fun _ => close t 1) l l' /\ lists (fun _ => close t 1) r r'.

Lemma outer_follows i u U j st st' : (1 <= j)%nat ->
  (forall x, getZ U (Z.of_nat i + 1 - Z.of_nat j) = Ok x -> x <= u) -> (forall x, get U (i + j) = Ok x -> u <= x) ->
  outer_rel j st st' -> follows (outer_rel (S j)) (basis_outer i u U j st) (fbasis_outer fl i u U j st').
Proof.
  intros Hj HA HB. destruct st as [[N l] r], st' as [[N' l'] r']. intros (HN & HL & HR). unfold basis_outer, fbasis_outer.
  apply follows_bind_same. intros a Ea. specialize (HA a Ea).
  eapply follows_rnd_close; [apply (close_refl t t_pos t_le1 0 (u - a)); qc_lra|]. intros la Hla.
  eapply follows_bind; [apply (follows_set _ (fun _ => close t 1) _ _ j _ _ HL); [auto|exact Hla]|]. intros l2 l2' HL2.
  apply follows_bind_same. intros b Eb. specialize (HB b Eb).
  eapply follows_rnd_close; [apply (close_refl t t_pos t_le1 0 (b - u)); qc_lra|]. intros rb Hrb.
  eapply follows_bind; [apply (follows_set _ (fun _ => close t 1) _ _ j _ _ HR); [auto|exact Hrb]|]. intros r2 r2' HR2.
  eapply follows_bind.
  { apply (follows_for (inner_rel j) _ _ j 0).
    - split; [exact HN|]. apply close_refl; auto. apply Qcle_refl.
    - intros k x y _ Hk. apply inner_follows; try assumption; lia. }
  cbn [Nat.add]. intros [M saved] [M' saved'] (HM & HS). cbn [fst snd] in HM, HS.
  eapply follows_bind.
  { apply (follows_set _ (fun i x y => close t (if Nat.ltb i (S j) then 6 * (S j - 1) else 0) x y) _ _ j _ _ HM).
    - intros k y y' Hk. destruct (Nat.ltb_spec k j), (Nat.ltb_spec k (S j)); try lia; [|auto].
      replace (6 * (S j - 1))%nat with (6 * j)%nat by lia. auto.
    - destruct (Nat.ltb_spec j (S j)); [|lia]. eapply close_mono; [exact t_pos|exact t_le1| |exact HS]. lia. }
  intros N2 N2' HN2. cbn. auto.
Qed.

Lemma lists_refl (R : nat -> Qc -> Qc -> Prop) l : (forall i, (i < length l)%nat -> R i (nth i l 0) (nth i l 0)) -> lists R l l.
Proof. intros H. split; [reflexivity|exact H]. Qed.
Lemma zeros_nth i : nth i zeros 0 = 0.
Proof. unfold zeros. revert i. generalize DEG_STACK_SIZE. induction n as [|n IH]; intros [|i]; cbn; auto. Qed.

Lemma basis_follows i u p U :
  (forall j x, (1 <= j <= p)%nat -> getZ U (Z.of_nat i + 1 - Z.of_nat j) = Ok x -> x <= u) ->
  (forall j x, (1 <= j <= p)%nat -> get U (i + j) = Ok x -> u <= x) ->
  follows (lists (fun r => close t (if Nat.leb r p then 6 * p else 0))) (basis_funs i u p U zeros) (fbasis_funs fl i u p U zeros).
Proof.
  intros HA HB. unfold basis_funs, fbasis_funs. apply follows_bind_same. intros N EN.
  eapply follows_bind.
  { apply (follows_for outer_rel _ _ p 1 (N, zeros, zeros) (N, zeros, zeros)).
    - split; [|split].
      + apply lists_refl. intros k _. apply close_refl; auto.
        destruct (set_nth_ok zeros 0 1) as (m & E & _ & G); [cbn; lia|]. rewrite E in EN. injection EN as <-. rewrite G, zeros_nth. destruct (Nat.eqb k 0); discriminate.
      + apply lists_refl. intros k _. rewrite zeros_nth. apply close_refl; auto. apply Qcle_refl.
      + apply lists_refl. intros k _. rewrite zeros_nth. apply close_refl; auto. apply Qcle_refl.
    - intros k x y H1 H2. apply outer_follows; [exact H1|intros z; apply HA; lia|intros z; apply HB; lia]. }
  cbn [Nat.add]. intros [[M l] r] [[M' l'] r'] (HM & _). cbn [follows]. destruct HM as (L & H). split; [exact L|]. intros k Hk. specialize (H k Hk).
  destruct (Nat.ltb_spec k (S p)), (Nat.leb_spec k p); try lia; [|exact H]. replace (6 * p)%nat with (6 * (S p - 1))%nat by lia. exact H.
Qed.
End Sim.
