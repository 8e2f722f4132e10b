(** 2 x 2 and dynamic matrices: inverses, products, transposes. *)
From Coq Require Import List ZArith QArith Qcanon Bool Lia Lqa Field.
From Verif Require Import Base BaseFacts LoopFacts ModelNurbs ModelNumeric SpecNurbs SpecNumeric ProofBspline ProofCurve ProofSurface.
Import ListNotations.
Open Scope Qc_scope.

(** ** 2 x 2 *)
Lemma m2_inverse_top : forall m,
  (m2_det m = 0 -> m2_inverse m = Throw ERuntime) /\
  (m2_det m <> 0 -> exists i, m2_inverse m = Ok i /\ m2_mul m i = m2_eye /\ m2_mul i m = m2_eye).
Proof.
  intros [a b c d]. unfold m2_inverse. destruct (Qceqb_spec (m2_det (M2 a b c d)) 0) as [H|H]; split; intros K; try contradiction; [reflexivity|].
  eexists. split; [reflexivity|]. unfold m2_mul, m2_eye, m2_det in *. cbn [m00 m01 m10 m11] in *. split; f_equal; field; assumption.
Qed.

Lemma solve2x2_top : forall A b,
  (m2_det A = 0 -> solve2x2 A b = None) /\
  (m2_det A <> 0 -> exists x, solve2x2 A b = Some x /\ m2_apply A x = b /\ forall y, m2_apply A y = b -> y = x).
Proof.
  intros [a b c d] [p q]. unfold solve2x2. destruct (Qceqb_spec (m2_det (M2 a b c d)) 0) as [H|H]; split; intros K; try contradiction; [reflexivity|].
  eexists. split; [reflexivity|]. unfold m2_apply, m2_det in *. cbn [m00 m01 m10 m11 fst snd] in *. split.
  - f_equal; field; assumption.
  - intros [y1 y2] E. cbn [fst snd] in E. injection E as <- <-. f_equal; field; assumption.
Qed.

Lemma m2_operations_top : forall m o v,
  m2_det m = m00 m * m11 m - m01 m * m10 m /\ m2_transpose (m2_transpose m) = m /\
  m2_transpose (m2_mul m o) = m2_mul (m2_transpose o) (m2_transpose m) /\
  m2_det (m2_mul m o) = m2_det m * m2_det o /\ m2_apply (m2_mul m o) v = m2_apply m (m2_apply o v) /\
  m2_apply m (1, 0) = (m00 m, m10 m) /\ m2_apply m (0, 1) = (m01 m, m11 m).
Proof.
  intros [a b c d] [e f g h] [x y]. unfold m2_det, m2_transpose, m2_mul, m2_apply. cbn [m00 m01 m10 m11 fst snd].
  split; [reflexivity|]. split; [reflexivity|]. split; [f_equal; ring|]. split; [ring|]. split; [f_equal; ring|]. split; f_equal; ring.
Qed.

(** ** dynamic *)
Definition rep (m : matd) (r c : nat) (F : nat -> nat -> Qc) : Prop :=
  md_rows m = r /\ md_cols m = c /\ length (md_data m) = (r * c)%nat /\
  forall i j, (i < r)%nat -> (j < c)%nat -> nth (i * c + j) (md_data m) 0 = F i j.

Lemma idx_lt r c i j : (i < r)%nat -> (j < c)%nat -> (i * c + j < r * c)%nat.
Proof. intros. nia. Qed.
Lemma idx_inj c i j a b : (j < c)%nat -> (b < c)%nat -> (i * c + j = a * c + b)%nat -> i = a /\ j = b.
Proof. intros H H' E. assert (i = a) by nia. subst. lia. Qed.

Lemma rep_ok m : md_ok m -> rep m (md_rows m) (md_cols m) (entry m).
Proof. intros H. repeat split; auto. Qed.
Lemma rep_entry m r c F : rep m r c F -> md_ok m /\ md_rows m = r /\ md_cols m = c /\ forall i j, (i < r)%nat -> (j < c)%nat -> entry m i j = F i j.
Proof. intros (A & B & C & D). unfold md_ok, entry. rewrite A, B. auto. Qed.
Lemma rep_ext m r c F G : (forall i j, (i < r)%nat -> (j < c)%nat -> F i j = G i j) -> rep m r c F -> rep m r c G.
Proof. intros H (A & B & C & D). repeat split; auto. intros. rewrite <- H by assumption. auto. Qed.
Lemma rep_get m r c F i j : rep m r c F -> (i < r)%nat -> (j < c)%nat -> md_get m i j = Ok (F i j).
Proof.
  intros (A & B & C & D) Hi Hj. unfold md_get. rewrite B, (get_ok _ _ 0) by (rewrite C; apply idx_lt; assumption). f_equal. auto.
Qed.
Definition upd (F : nat -> nat -> Qc) i j x := fun a b => if (Nat.eqb a i && Nat.eqb b j)%bool then x else F a b.
Lemma rep_set m r c F i j x : rep m r c F -> (i < r)%nat -> (j < c)%nat -> exists m', md_set m i j x = Ok m' /\ rep m' r c (upd F i j x).
Proof.
  intros (A & B & C & D) Hi Hj. unfold md_set. rewrite B.
  destruct (set_nth_ok (md_data m) (i * c + j) x) as (l & E & L & N); [rewrite C; apply idx_lt; assumption|].
  rewrite E. cbn [bind]. eexists. split; [reflexivity|]. split; [exact A|]. split; [reflexivity|]. split; [cbn; congruence|].
  intros a b Ha Hb. cbn [md_data]. rewrite N. unfold upd. destruct (Nat.eqb_spec a i) as [->|NE]; cbn [andb].
  - destruct (Nat.eqb_spec b j) as [->|NE]; [rewrite Nat.eqb_refl; reflexivity|].
    destruct (Nat.eqb_spec (i * c + b) (i * c + j)); [lia|]. auto.
  - destruct (Nat.eqb_spec (a * c + b) (i * c + j)) as [E'|]; [|auto]. apply idx_inj in E'; [tauto|assumption|assumption].
Qed.
Lemma rep_zero r c : rep (md_zero r c) r c (fun _ _ => 0).
Proof.
  repeat split; cbn; try apply repeat_length. intros. apply nth_repeat.
Qed.

Ltac upds := unfold upd; intros; repeat match goal with
  | |- context[Nat.eqb ?a ?b] => destruct (Nat.eqb_spec a b); cbn [andb orb]
  | |- context[Nat.ltb ?a ?b] => destruct (Nat.ltb_spec a b); cbn [andb orb] end; subst; try lia; try reflexivity.

(** a loop that sets row i, cell by cell *)
Lemma row_loop (body : nat -> matd -> res matd) r c (F : nat -> nat -> Qc) (G : nat -> Qc) i n m :
  (i < r)%nat -> (n <= c)%nat ->
  (forall j m, (j < n)%nat -> rep m r c (fun a b => if (Nat.eqb a i && Nat.ltb b j)%bool then G b else F a b) ->
    exists m', body j m = Ok m' /\ rep m' r c (upd (fun a b => if (Nat.eqb a i && Nat.ltb b j)%bool then G b else F a b) i j (G j))) ->
  rep m r c F ->
  exists m', for_up n 0 body m = Ok m' /\ rep m' r c (fun a b => if (Nat.eqb a i && Nat.ltb b n)%bool then G b else F a b).
Proof.
  intros Hi Hn Hb Hm.
  apply (for_up_inv (fun j m => rep m r c (fun a b => if (Nat.eqb a i && Nat.ltb b j)%bool then G b else F a b))).
  - revert Hm. apply rep_ext. upds.
  - intros j m1 _ Hj H. destruct (Hb j m1 Hj H) as (m' & E & H'). exists m'. split; [exact E|]. revert H'. apply rep_ext. upds.
Qed.

Lemma md_mul_rep a b r n c F G : rep a r n F -> rep b n c G ->
  exists m, md_mul a b = Ok m /\ rep m r c (fun i j => qsum (fun k => F i k * G k j) n).
Proof.
  intros Ha Hb. pose proof Ha as (A1 & A2 & _). pose proof Hb as (B1 & B2 & _). unfold md_mul. rewrite A1, A2, B1, B2, Nat.eqb_refl. cbn [negb].
  set (H := fun i j => qsum (fun k => F i k * G k j) n).
  destruct (for_up_inv (fun i m => rep m r c (fun a b => if Nat.ltb a i then H a b else 0)) 
    (fun i r0 => for_up c 0 (fun j r1 => for_up n 0 (fun k r2 => x <- md_get r2 i j;; y <- md_get a i k;; z <- md_get b k j;; md_set r2 i j (x + y * z)) r1) r0) r 0
    (md_zero r c)) as (m & E & R).
  - eapply rep_ext; [|apply rep_zero]. upds.
  - intros i m _ Hi Hm. destruct (row_loop (fun j r1 => for_up n 0 (fun k r2 => x <- md_get r2 i j;; y <- md_get a i k;; z <- md_get b k j;; md_set r2 i j (x + y * z)) r1)
      r c (fun a b => if Nat.ltb a i then H a b else 0) (H i) i c m) as (m' & E & R); try lia; try assumption.
    + intros j m1 Hj Hm1. set (F1 := fun a b => _) in Hm1 |- *.
      destruct (for_up_inv (fun k m => rep m r c (upd F1 i j (qsum (fun k => F i k * G k j) k)))
        (fun k r2 => x <- md_get r2 i j;; y <- md_get a i k;; z <- md_get b k j;; md_set r2 i j (x + y * z)) n 0 m1) as (m2 & E & R).
      * revert Hm1. apply rep_ext. unfold F1. upds.
      * intros k m2 _ Hk Hm2. rewrite (rep_get _ _ _ _ _ _ Hm2), (rep_get _ _ _ _ _ _ Ha), (rep_get _ _ _ _ _ _ Hb) by (assumption || lia). cbn [bind].
        destruct (rep_set _ _ _ _ i j (upd F1 i j (qsum (fun k => F i k * G k j) k) i j + F i k * G k j) Hm2) as (m3 & E & R); [assumption|assumption|].
        exists m3. split; [exact E|]. revert R. apply rep_ext. upds.
      * exists m2. split; [exact E|exact R].
    + exists m'. split; [exact E|]. revert R. apply rep_ext. upds.
  - exists m. split; [exact E|]. revert R. apply rep_ext. upds.
Qed.

Lemma md_transpose_rep a r c F : rep a r c F -> exists m, md_transpose a = Ok m /\ rep m c r (fun i j => F j i).
Proof.
  intros Ha. pose proof Ha as (A1 & A2 & _). unfold md_transpose. rewrite A1, A2.
  destruct (for_up_inv (fun i m => rep m c r (fun a b => if Nat.ltb b i then F b a else 0))
    (fun i r0 => for_up c 0 (fun j r1 => x <- md_get a i j;; md_set r1 j i x) r0) r 0 (md_zero c r)) as (m & E & R).
  - eapply rep_ext; [|apply rep_zero]. upds.
  - intros i m _ Hi Hm.
    destruct (for_up_inv (fun j m => rep m c r (fun a b => if (Nat.ltb b i || (Nat.eqb b i && Nat.ltb a j))%bool then F b a else 0))
      (fun j r1 => x <- md_get a i j;; md_set r1 j i x) c 0 m) as (m2 & E & R).
    + revert Hm. apply rep_ext. upds.
    + intros j m1 _ Hj Hm1. rewrite (rep_get _ _ _ _ _ _ Ha) by (assumption || lia). cbn [bind].
      destruct (rep_set _ _ _ _ j i (F i j) Hm1) as (m3 & E & R); [assumption|assumption|]. exists m3. split; [exact E|]. revert R. apply rep_ext. upds.
    + exists m2. split; [exact E|]. revert R. apply rep_ext. upds.
  - exists m. split; [exact E|]. revert R. apply rep_ext. upds.
Qed.

(** ** the inverse *)
Lemma augment_rep a n F : rep a n n F -> exists m, md_augment a = Ok m /\
  rep m n (2 * n) (fun i j => if Nat.ltb j n then F i j else delta i (j - n)).
Proof.
  intros Ha. pose proof Ha as (A1 & A2 & _). unfold md_augment. rewrite A1, A2.
  set (H := fun i j => if Nat.ltb j n then F i j else delta i (j - n)).
  destruct (for_up_inv (fun i m => rep m n (2 * n) (fun a b => if Nat.ltb a i then H a b else 0))
    (fun i r0 => for_up n 0 (fun j r1 => x <- md_get a i j;; r2 <- md_set r1 i j x;; md_set r2 i (j + n) (if Nat.eqb i j then 1 else 0)) r0) n 0 (md_zero n (2 * n))) as (m & E & R).
  - eapply rep_ext; [|apply rep_zero]. upds.
  - intros i m _ Hi Hm.
    destruct (for_up_inv (fun j m => rep m n (2 * n) (fun a b => if (Nat.ltb a i || (Nat.eqb a i && (Nat.ltb b j || (Nat.leb n b && Nat.ltb (b - n) j))))%bool then H a b else 0))
      (fun j r1 => x <- md_get a i j;; r2 <- md_set r1 i j x;; md_set r2 i (j + n) (if Nat.eqb i j then 1 else 0)) n 0 m) as (m2 & E & R).
    + revert Hm. apply rep_ext. intros x y _ _. destruct (Nat.ltb_spec x i); cbn [orb]; [reflexivity|].
      destruct (Nat.eqb_spec x i); cbn [andb]; [|reflexivity]. destruct (Nat.ltb_spec y 0); [lia|]. cbn [orb].
      destruct (Nat.ltb_spec (y - n) 0); [lia|]. rewrite andb_false_r. reflexivity.
    + intros j m1 _ Hj Hm1. rewrite (rep_get _ _ _ _ _ _ Ha) by (assumption || lia). cbn [bind].
      destruct (rep_set _ _ _ _ i j (F i j) Hm1) as (m3 & E & R); [assumption|lia|]. rewrite E. cbn [bind].
      destruct (rep_set _ _ _ _ i (j + n) (if Nat.eqb i j then 1 else 0) R) as (m4 & E4 & R4); [assumption|lia|].
      exists m4. split; [exact E4|]. revert R4. apply rep_ext. unfold upd, H, delta. intros x y Hx Hy.
      destruct (Nat.eqb_spec x i) as [->|]; cbn [andb]; [|rewrite !orb_false_r; reflexivity].
      destruct (Nat.ltb_spec i i); [lia|]. cbn [orb].
      destruct (Nat.eqb_spec y (j + n)) as [->|].
      * destruct (Nat.ltb_spec (j + n) (S j)); [lia|]. destruct (Nat.leb_spec n (j + n)); [|lia]. replace (j + n - n)%nat with j by lia.
        destruct (Nat.ltb_spec j (S j)); [|lia]. cbn [orb andb]. destruct (Nat.ltb_spec (j + n) n); [lia|]. reflexivity.
      * destruct (Nat.eqb_spec y j) as [->|].
        -- destruct (Nat.ltb_spec j (S j)); [|lia]. cbn [orb]. destruct (Nat.ltb_spec j n); [reflexivity|lia].
        -- destruct (Nat.ltb_spec y j), (Nat.ltb_spec y (S j)); try lia; cbn [orb]; [reflexivity|].
           destruct (Nat.leb_spec n y); [|reflexivity]. cbn [andb]. destruct (Nat.ltb_spec (y - n) j), (Nat.ltb_spec (y - n) (S j)); try lia; reflexivity.
    + exists m2. split; [exact E|]. revert R. apply rep_ext. intros x y Hx Hy.
      destruct (Nat.ltb_spec x i), (Nat.ltb_spec x (S i)); try lia; cbn [orb]; [reflexivity| |destruct (Nat.eqb_spec x i); [lia|reflexivity]].
      destruct (Nat.eqb_spec x i); [|lia]. cbn [andb]. destruct (Nat.ltb_spec y (0 + n)); cbn [orb]; [reflexivity|].
      destruct (Nat.leb_spec n y); [|lia]. destruct (Nat.ltb_spec (y - n) (0 + n)); [reflexivity|lia].
  - exists m. split; [exact E|]. revert R. apply rep_ext. upds.
Qed.

Lemma pivot_ok a n c F i : rep a n c F -> (i < n)%nat -> (i < c)%nat -> exists p, md_pivot a n i = Ok p /\ (i <= p < n)%nat.
Proof.
  intros Ha Hi Hc. unfold md_pivot.
  destruct (for_up_inv (fun _ p => (i <= p < n)%nat)
    (fun j pivot => x <- md_get a j i ;; y <- md_get a pivot i ;; Ok (if Qcabs y <? Qcabs x then j else pivot)) (n - (i + 1)) (i + 1) i) as (p & E & R); [lia| |eauto].
  intros j p Hj1 Hj2 Hp. rewrite !(rep_get _ _ _ _ _ _ Ha) by lia. cbn [bind]. eexists. split; [reflexivity|]. destruct (_ <? _); lia.
Qed.

Lemma swap_rep a n F i p : rep a n (2 * n) F -> (i < n)%nat -> (p < n)%nat -> exists m, md_swap a n i p = Ok m /\
  rep m n (2 * n) (fun r k => if Nat.eqb r i then F p k else if Nat.eqb r p then F i k else F r k).
Proof.
  intros Ha Hi Hp. unfold md_swap. destruct (Nat.eqb_spec p i) as [->|NE].
  - exists a. split; [reflexivity|]. revert Ha. apply rep_ext. upds.
  - destruct (for_up_inv (fun j m => rep m n (2 * n) (fun r k => if Nat.ltb k j then (if Nat.eqb r i then F p k else if Nat.eqb r p then F i k else F r k) else F r k))
      (fun j r => x <- md_get r i j ;; y <- md_get r p j ;; r <- md_set r i j y ;; md_set r p j x) (2 * n) 0 a) as (m & E & R).
    + revert Ha. apply rep_ext. upds.
    + intros j m _ Hj Hm. rewrite !(rep_get _ _ _ _ _ _ Hm) by lia. cbn [bind]. rewrite Nat.ltb_irrefl.
      destruct (rep_set _ _ _ _ i j (F p j) Hm) as (m1 & E1 & R1); [lia|lia|]. rewrite E1. cbn [bind].
      destruct (rep_set _ _ _ _ p j (F i j) R1) as (m2 & E2 & R2); [lia|lia|]. exists m2. split; [exact E2|]. revert R2. apply rep_ext. upds.
    + exists m. split; [exact E|]. revert R. apply rep_ext. upds.
Qed.

Lemma scale_rep a n F i pv : rep a n (2 * n) F -> (i < n)%nat -> pv <> 0 -> exists m, md_scale a n i pv = Ok m /\
  rep m n (2 * n) (fun r k => if Nat.eqb r i then F i k / pv else F r k).
Proof.
  intros Ha Hi Hp. unfold md_scale.
  destruct (row_loop (fun j r => x <- md_get r i j ;; y <- qdiv x pv ;; md_set r i j y) n (2 * n) F (fun k => F i k / pv) i (2 * n) a) as (m & E & R); try assumption; try lia.
  - intros j m Hj Hm. rewrite (rep_get _ _ _ _ _ _ Hm) by lia. cbn [bind]. rewrite Nat.ltb_irrefl, andb_false_r. unfold qdiv.
    destruct (Qceqb_spec pv 0); [contradiction|]. cbn [bind]. apply rep_set; [assumption|lia|lia].
  - exists m. split; [exact E|]. revert R. apply rep_ext. upds.
Qed.

Lemma eliminate_rep a n F i : rep a n (2 * n) F -> (i < n)%nat -> exists m, md_eliminate a n n i = Ok m /\
  rep m n (2 * n) (fun r k => if Nat.eqb r i then F r k else F r k - F r i * F i k).
Proof.
  intros Ha Hi. unfold md_eliminate.
  destruct (for_up_inv (fun q m => rep m n (2 * n) (fun r k => if (Nat.eqb r i || negb (Nat.ltb r q))%bool then F r k else F r k - F r i * F i k))
    (fun k r => if Nat.eqb k i then Ok r else factor <- md_get r k i ;;
      for_up (2 * n) 0 (fun j r => x <- md_get r k j ;; y <- md_get r i j ;; md_set r k j (x - factor * y)) r) n 0 a) as (m & E & R).
  - revert Ha. apply rep_ext. intros. destruct (Nat.ltb_spec i0 0); [lia|]. cbn [negb]. rewrite orb_true_r. reflexivity.
  - intros q m _ Hq Hm. destruct (Nat.eqb_spec q i) as [->|NE].
    + exists m. split; [reflexivity|]. revert Hm. apply rep_ext. intros r k Hr Hk. destruct (Nat.eqb_spec r i); cbn [orb]; [reflexivity|].
      destruct (Nat.ltb_spec r i), (Nat.ltb_spec r (S i)); try lia; reflexivity.
    + rewrite (rep_get _ _ _ _ _ _ Hm) by lia. cbn [bind]. destruct (Nat.eqb_spec q i); [contradiction|]. rewrite Nat.ltb_irrefl. cbn [orb negb].
      set (F1 := fun r k => _) in Hm.
      destruct (row_loop (fun j r => x <- md_get r q j ;; y <- md_get r i j ;; md_set r q j (x - F q i * y)) n (2 * n) F1 (fun k => F q k - F q i * F i k) q (2 * n) m) as (m' & E & R); try assumption; try lia.
      * intros j m1 Hj Hm1. rewrite !(rep_get _ _ _ _ _ _ Hm1) by lia. cbn [bind].
        rewrite Nat.ltb_irrefl, andb_false_r. destruct (Nat.eqb_spec i q); [congruence|]. cbn [andb].
        replace (F1 q j) with (F q j) by (unfold F1; rewrite Nat.ltb_irrefl; destruct (Nat.eqb_spec q i); reflexivity).
        replace (F1 i j) with (F i j) by (unfold F1; rewrite Nat.eqb_refl; reflexivity).
        apply rep_set; [assumption|lia|lia].
      * exists m'. split; [exact E|]. revert R. apply rep_ext. unfold F1. intros r k Hr Hk.
        destruct (Nat.ltb_spec k (2 * n)); [|lia]. rewrite andb_true_r. destruct (Nat.eqb_spec r q) as [->|].
        -- destruct (Nat.eqb_spec q i); [contradiction|]. destruct (Nat.ltb_spec q (S q)); [|lia]. reflexivity.
        -- destruct (Nat.eqb_spec r i); [reflexivity|]. cbn [orb]. destruct (Nat.ltb_spec r q), (Nat.ltb_spec r (S q)); try lia; reflexivity.
  - exists m. split; [exact E|]. revert R. apply rep_ext. intros r k Hr Hk. destruct (Nat.ltb_spec r (0 + n)); [|lia]. rewrite orb_false_r. reflexivity.
Qed.

(** the vectors orthogonal to every row are not changed by the row operations *)
Definition sol (n : nat) (F : nat -> nat -> Qc) (z : nat -> Qc) : Prop := forall r, (r < n)%nat -> qsum (fun k => F r k * z k) (2 * n) = 0.

Lemma sol_swap n F i p z : (i < n)%nat -> (p < n)%nat ->
  (sol n (fun r k => if Nat.eqb r i then F p k else if Nat.eqb r p then F i k else F r k) z <-> sol n F z).
Proof.
  intros Hi Hp. unfold sol. split; intros H r Hr.
  - destruct (Nat.eq_dec r i) as [->|N1].
    + specialize (H p Hp). destruct (Nat.eqb_spec p i) as [->|N2]; [exact H|]. rewrite Nat.eqb_refl in H. exact H.
    + destruct (Nat.eq_dec r p) as [->|N2]; [specialize (H i Hi); rewrite Nat.eqb_refl in H; exact H|].
      specialize (H r Hr). destruct (Nat.eqb_spec r i); [contradiction|]. destruct (Nat.eqb_spec r p); [contradiction|]. exact H.
  - destruct (Nat.eqb r i); [apply H; assumption|]. destruct (Nat.eqb r p); apply H; assumption.
Qed.
Lemma sol_scale n F i pv z : (i < n)%nat -> pv <> 0 -> (sol n (fun r k => if Nat.eqb r i then F i k / pv else F r k) z <-> sol n F z).
Proof.
  intros Hi Hp. unfold sol.
  assert (qsum (fun k => F i k / pv * z k) (2 * n) = / pv * qsum (fun k => F i k * z k) (2 * n)) as E.
  { rewrite <- qsum_scale. apply qsum_ext. intros. field. assumption. }
  split; intros H r Hr.
  - pose proof (H r Hr) as H1. clear H. rename H1 into H. destruct (Nat.eqb_spec r i) as [->|]; [|exact H]. rewrite E in H.
    apply (f_equal (fun x => pv * x)) in H. rewrite Qcmult_assoc, Qcmult_inv_r, Qcmult_1_l, Qcmult_0_r in H by assumption. exact H.
  - destruct (Nat.eqb_spec r i) as [->|]; [|apply H; assumption]. rewrite E, (H i Hi). ring.
Qed.
Lemma sol_eliminate n F i z : (i < n)%nat -> (sol n (fun r k => if Nat.eqb r i then F r k else F r k - F r i * F i k) z <-> sol n F z).
Proof.
  intros Hi. unfold sol.
  assert (forall r, qsum (fun k => (F r k - F r i * F i k) * z k) (2 * n) = qsum (fun k => F r k * z k) (2 * n) - F r i * qsum (fun k => F i k * z k) (2 * n)) as E.
  { intros r. transitivity (qsum (fun k => F r k * z k) (2 * n) + (- F r i) * qsum (fun k => F i k * z k) (2 * n)); [|ring].
    rewrite <- qsum_scale, <- qsum_add. apply qsum_ext. intros. ring. }
  split; intros H r Hr.
  - pose proof (H i Hi) as Hi0. rewrite Nat.eqb_refl in Hi0. pose proof (H r Hr) as H1. clear H. rename H1 into H. destruct (Nat.eqb_spec r i) as [->|]; [exact H|].
    rewrite E, Hi0 in H. rewrite <- H. ring.
  - destruct (Nat.eqb_spec r i) as [->|]; [apply H; assumption|]. rewrite E, (H i Hi), (H r Hr). ring.
Qed.

(** one turn: either the pivot is too small, or column i becomes a unit column *)
Lemma turn_ok n i a F : rep a n (2 * n) F -> (i < n)%nat -> (forall j r, (j < i)%nat -> (r < n)%nat -> F r j = delta r j) ->
  md_turn n n i a = Throw ERuntime \/
  exists m G, md_turn n n i a = Ok m /\ rep m n (2 * n) G /\ (forall j r, (j < S i)%nat -> (r < n)%nat -> G r j = delta r j) /\ (forall z, sol n G z <-> sol n F z).
Proof.
  intros Ha Hi Hc. unfold md_turn. destruct (pivot_ok a n (2 * n) F i Ha Hi ltac:(lia)) as (p & E & Hp). rewrite E. cbn [bind]. clear E.
  destruct (swap_rep a n F i p Ha Hi ltac:(lia)) as (m1 & E1 & R1). rewrite E1. cbn [bind].
  rewrite (rep_get _ _ _ _ _ _ R1) by lia. cbn [bind]. rewrite Nat.eqb_refl.
  destruct (Qcltb_spec (Qcabs (F p i)) lit_1em10) as [T|T]; [left; reflexivity|right].
  assert (F p i <> 0) as NZ. { intros Z. apply T. rewrite Z. vm_compute. reflexivity. }
  destruct (scale_rep m1 n _ i (F p i) R1 Hi NZ) as (m2 & E2 & R2). rewrite E2. cbn [bind].
  destruct (eliminate_rep m2 n _ i R2 Hi) as (m3 & E3 & R3). exists m3. eexists. split; [exact E3|]. split; [exact R3|]. split.
  - intros j r Hj Hr. cbn beta. rewrite Nat.eqb_refl. unfold delta. destruct (Nat.eq_dec j i) as [->|NJ].
    + destruct (Nat.eqb_spec r i) as [->|NR]; [field; assumption|].
      field. assumption.
    + assert (F p j = 0) as Z1. { rewrite Hc by lia. unfold delta. destruct (Nat.eqb_spec p j); [lia|reflexivity]. }
      assert (F i j = 0) as Z2. { rewrite Hc by lia. unfold delta. destruct (Nat.eqb_spec i j); [lia|reflexivity]. }
      rewrite Z1. destruct (Nat.eqb_spec r i) as [->|NR].
      * destruct (Nat.eqb_spec i j); [lia|]. field. assumption.
      * destruct (Nat.eqb_spec r p) as [->|NP].
        -- rewrite Z2. destruct (Nat.eqb_spec p j); [lia|]. field. assumption.
        -- rewrite (Hc j r) by lia. unfold delta. field. assumption.
  - intros z. rewrite (sol_eliminate n _ i z Hi), <- (sol_swap n F i p z Hi ltac:(lia)).
    exact (sol_scale n (fun r k => if Nat.eqb r i then F p k else if Nat.eqb r p then F i k else F r k) i (F p i) z Hi NZ).
Qed.

Lemma turns_ok n cnt : forall i a F, rep a n (2 * n) F -> (i + cnt <= n)%nat -> (forall j r, (j < i)%nat -> (r < n)%nat -> F r j = delta r j) ->
  for_up cnt i (md_turn n n) a = Throw ERuntime \/
  exists m G, for_up cnt i (md_turn n n) a = Ok m /\ rep m n (2 * n) G /\ (forall j r, (j < i + cnt)%nat -> (r < n)%nat -> G r j = delta r j) /\ (forall z, sol n G z <-> sol n F z).
Proof.
  induction cnt; intros i a F Ha Hi Hc; cbn [for_up].
  - right. exists a, F. rewrite Nat.add_0_r. split; [reflexivity|]. split; [assumption|]. split; [assumption|]. tauto.
  - destruct (turn_ok n i a F Ha ltac:(lia) Hc) as [->|(m & G & -> & R & C & S1)]; [left; reflexivity|]. cbn [bind].
    destruct (IHcnt (S i) m G R ltac:(lia) C) as [->|(m' & G' & -> & R' & C' & S2)]; [left; reflexivity|right].
    exists m', G'. split; [reflexivity|]. split; [assumption|]. split; [intros; apply C'; lia|]. intros z. rewrite S2. apply S1.
Qed.

Lemma qsum_delta_l (f : nat -> Qc) i n : (i < n)%nat -> qsum (fun k => delta i k * f k) n = f i.
Proof. intros H. rewrite <- (qsum_delta f i n H). apply qsum_ext. intros. unfold delta. rewrite Nat.eqb_sym. reflexivity. Qed.
Lemma qsum_delta_r (f : nat -> Qc) j n : (j < n)%nat -> qsum (fun k => f k * delta k j) n = f j.
Proof. intros H. rewrite <- (qsum_delta f j n H). apply qsum_ext. intros. unfold delta. ring. Qed.

Lemma md_inverse_rep a n A : rep a n n A ->
  md_inverse a = Throw ERuntime \/
  exists m B, md_inverse a = Ok m /\ rep m n n B /\
    (forall i j, (i < n)%nat -> (j < n)%nat -> qsum (fun k => A i k * B k j) n = delta i j) /\
    (forall i j, (i < n)%nat -> (j < n)%nat -> qsum (fun k => B i k * A k j) n = delta i j).
Proof.
  intros Ha. pose proof Ha as (A1 & A2 & _). unfold md_inverse. rewrite A1, A2, Nat.eqb_refl. cbn [negb].
  destruct (augment_rep a n A Ha) as (m0 & E0 & R0). rewrite E0. cbn [bind].
  destruct (turns_ok n n 0 m0 _ R0 ltac:(lia) ltac:(intros; lia)) as [->|(m1 & G & -> & R1 & C & S)]; [left; reflexivity|right]. cbn [bind].
  destruct (for_up_inv (fun i m => rep m n n (fun a b => if Nat.ltb a i then G a (b + n)%nat else 0))
    (fun i r => for_up n 0 (fun j r => x <- md_get m1 i (j + n) ;; md_set r i j x) r) n 0 (md_zero n n)) as (m & E & R).
  - eapply rep_ext; [|apply rep_zero]. upds.
  - intros i m _ Hi Hm.
    destruct (row_loop (fun j r => x <- md_get m1 i (j + n) ;; md_set r i j x) n n (fun a b => if Nat.ltb a i then G a (b + n)%nat else 0) (fun b => G i (b + n)%nat) i n m Hi (le_n n)) as (m' & E & R); try assumption.
    + intros j m2 Hj Hm2. rewrite (rep_get _ _ _ _ _ _ R1) by lia. cbn [bind]. apply rep_set; [assumption|lia|lia].
    + exists m'. split; [exact E|]. revert R. apply rep_ext. upds.
  - exists m, (fun i j => G i (j + n)%nat). split; [exact E|]. split; [revert R; apply rep_ext; upds|].
    (* A x = y iff x = B y *)
    assert (forall x y, (forall r, (r < n)%nat -> qsum (fun k => A r k * x k) n = y r) <-> (forall r, (r < n)%nat -> x r = qsum (fun k => G r (k + n)%nat * y k) n)) as EQ.
    { intros x y. set (z := fun k => if Nat.ltb k n then x k else - y (k - n)%nat).
      assert (forall H : nat -> nat -> Qc, forall r, qsum (fun k => H r k * z k) (2 * n) = qsum (fun k => H r k * x k) n - qsum (fun k => H r (k + n)%nat * y k) n) as SP.
      { intros H r. replace (2 * n)%nat with (n + n)%nat by lia. rewrite qsum_split.
        transitivity (qsum (fun k => H r k * x k) n + (- (1)) * qsum (fun k => H r (k + n)%nat * y k) n); [|ring]. rewrite <- qsum_scale. f_equal; apply qsum_ext; intros k Hk; unfold z.
        - destruct (Nat.ltb_spec k n); [reflexivity|lia].
        - destruct (Nat.ltb_spec (n + k) n); [lia|]. replace (n + k - n)%nat with k by lia. rewrite (Nat.add_comm n k). ring. }
      specialize (S z). unfold sol in S. 
      assert ((forall r, (r < n)%nat -> qsum (fun k => A r k * x k) n = y r) <-> (forall r, (r < n)%nat -> qsum (fun k => (if Nat.ltb k n then A r k else delta r (k - n)) * z k) (2 * n) = 0)) as L1.
      { assert (forall r, (r < n)%nat -> qsum (fun k => (if Nat.ltb k n then A r k else delta r (k - n)) * z k) (2 * n) = qsum (fun k => A r k * x k) n - y r) as L.
        { intros r Hr. rewrite (SP (fun r k => if Nat.ltb k n then A r k else delta r (k - n)) r). f_equal.
          - apply qsum_ext. intros k Hk. destruct (Nat.ltb_spec k n); [reflexivity|lia].
          - f_equal. rewrite <- (qsum_delta_l y r n Hr). apply qsum_ext. intros k Hk. destruct (Nat.ltb_spec (k + n) n); [lia|]. replace (k + n - n)%nat with k by lia. reflexivity. }
        split; intros H r Hr; [rewrite L, H by assumption; ring|]. specialize (H r Hr). rewrite L in H by assumption. 
        rewrite <- (Qcplus_0_l (y r)), <- H. ring. }
      rewrite L1, <- S.
      assert (forall r, (r < n)%nat -> qsum (fun k => G r k * z k) (2 * n) = x r - qsum (fun k => G r (k + n)%nat * y k) n) as L.
      { intros r Hr. rewrite SP. f_equal. rewrite <- (qsum_delta_l x r n Hr). apply qsum_ext. intros k Hk. rewrite C by lia. reflexivity. }
      split; intros H r Hr; [|rewrite L, <- H by assumption; ring]. specialize (H r Hr). rewrite L in H by assumption.
      rewrite <- (Qcplus_0_l (qsum _ n)), <- H. ring. }
    split; intros i j Hi Hj.
    + destruct (EQ (fun k => G k (j + n)%nat) (fun k => delta k j)) as (_ & Q). apply Q; [|assumption]. intros r Hr.
      rewrite (qsum_delta_r (fun k => G r (k + n)%nat) j n Hj). reflexivity.
    + destruct (EQ (fun k => delta k j) (fun k => A k j)) as (Q & _). symmetry. apply Q; [|assumption]. intros r Hr.
      apply (qsum_delta_r (fun k => A r k) j n Hj).
Qed.

Lemma md_inverse_top : forall a, md_ok a ->
  (md_rows a <> md_cols a -> md_inverse a = Throw ERuntime) /\
  (md_rows a = md_cols a ->
     md_inverse a = Throw ERuntime \/
     exists b, md_inverse a = Ok b /\ md_ok b /\ md_rows b = md_rows a /\ md_cols b = md_rows a /\ inverse_of (md_rows a) a b) /\
  (md_rows a = md_cols a -> singular (md_rows a) a -> md_inverse a = Throw ERuntime).
Proof.
  intros a Ha.
  assert (md_rows a = md_cols a -> md_inverse a = Throw ERuntime \/
     exists b, md_inverse a = Ok b /\ md_ok b /\ md_rows b = md_rows a /\ md_cols b = md_rows a /\ inverse_of (md_rows a) a b) as M.
  { intros E. pose proof (rep_ok a Ha) as R. rewrite <- E in R. destruct (md_inverse_rep a _ _ R) as [->|(m & B & -> & RB & I1 & I2)]; [left; reflexivity|right].
    apply rep_entry in RB. destruct RB as (O & R1 & R2 & EN). exists m. split; [reflexivity|]. split; [assumption|]. split; [assumption|]. split; [assumption|].
    split; intros i j Hi Hj; [rewrite <- (I1 i j) by assumption|rewrite <- (I2 i j) by assumption]; apply qsum_ext; intros; rewrite EN by assumption; reflexivity. }
  split; [|split; [exact M|]].
  - intros N. unfold md_inverse. destruct (Nat.eqb_spec (md_rows a) (md_cols a)); [contradiction|reflexivity].
  - intros E (x & (i & Hi & NZ) & Z). destruct (M E) as [|(b & _ & _ & _ & _ & (_ & I))]; [assumption|exfalso]. apply NZ.
    rewrite <- (qsum_delta_l x i _ Hi). transitivity (qsum (fun k => qsum (fun j => entry b i j * entry a j k) (md_rows a) * x k) (md_rows a)).
    { apply qsum_ext. intros k Hk. rewrite I by assumption. reflexivity. }
    transitivity (qsum (fun k => qsum (fun j => entry b i j * (entry a j k * x k)) (md_rows a)) (md_rows a)).
    { apply qsum_ext. intros k Hk. rewrite Qcmult_comm, <- qsum_scale. apply qsum_ext. intros. ring. }
    rewrite qsum_swap. apply qsum_zero. intros j Hj. rewrite qsum_scale, Z by assumption. ring.
Qed.

Lemma md_mul_top : forall a b, md_ok a -> md_ok b ->
  (md_cols a <> md_rows b -> md_mul a b = Throw ERuntime) /\
  (md_cols a = md_rows b -> exists m, md_mul a b = Ok m /\ md_ok m /\ md_rows m = md_rows a /\ md_cols m = md_cols b /\
     forall i j, (i < md_rows a)%nat -> (j < md_cols b)%nat -> entry m i j = qsum (fun k => entry a i k * entry b k j) (md_cols a)).
Proof.
  intros a b Ha Hb. split; intros E.
  - unfold md_mul. destruct (Nat.eqb_spec (md_cols a) (md_rows b)); [contradiction|reflexivity].
  - pose proof (rep_ok a Ha) as Ra. pose proof (rep_ok b Hb) as Rb. rewrite <- E in Rb.
    destruct (md_mul_rep _ _ _ _ _ _ _ Ra Rb) as (m & -> & R). apply rep_entry in R. destruct R as (O & R1 & R2 & EN). exists m. auto 10.
Qed.

Lemma md_transpose_top : forall a, md_ok a ->
  exists m, md_transpose a = Ok m /\ md_ok m /\ md_rows m = md_cols a /\ md_cols m = md_rows a /\
    forall i j, (i < md_cols a)%nat -> (j < md_rows a)%nat -> entry m i j = entry a j i.
Proof.
  intros a Ha. destruct (md_transpose_rep _ _ _ _ (rep_ok a Ha)) as (m & -> & R). apply rep_entry in R. destruct R as (O & R1 & R2 & EN). exists m. auto 10.
Qed.

Lemma md_eq a b : md_ok a -> md_ok b -> md_rows a = md_rows b -> md_cols a = md_cols b ->
  (forall i j, (i < md_rows a)%nat -> (j < md_cols a)%nat -> entry a i j = entry b i j) -> a = b.
Proof.
  destruct a as [da r c], b as [db r' c']. unfold md_ok, entry. cbn [md_data md_rows md_cols]. intros Ha Hb <- <- H. f_equal.
  apply (nth_ext_len _ _ 0); [congruence|]. intros i Hi. rewrite Ha in Hi.
  assert (c <> 0)%nat by (intros ->; lia).
  rewrite (Nat.div_mod i c) by assumption. rewrite (Nat.mul_comm c). apply H; [apply Nat.div_lt_upper_bound; lia|apply Nat.mod_upper_bound; assumption].
Qed.

(** the product is associative, and the transpose of a product is the product of
    the transposes in the other order *)
Lemma md_assoc_top : forall a b c, md_ok a -> md_ok b -> md_ok c -> md_cols a = md_rows b -> md_cols b = md_rows c ->
  exists ab bc r, md_mul a b = Ok ab /\ md_mul b c = Ok bc /\ md_mul ab c = Ok r /\ md_mul a bc = Ok r.
Proof.
  intros a b c Ha Hb Hc E1 E2.
  destruct (proj2 (md_mul_top a b Ha Hb) E1) as (ab & Eab & Oab & Rab & Cab & Nab).
  destruct (proj2 (md_mul_top b c Hb Hc) E2) as (bc & Ebc & Obc & Rbc & Cbc & Nbc).
  destruct (proj2 (md_mul_top ab c Oab Hc) ltac:(congruence)) as (r & Er & Or & Rr & Cr & Nr).
  destruct (proj2 (md_mul_top a bc Ha Obc) ltac:(congruence)) as (s & Es & Os & Rs & Cs & Ns).
  exists ab, bc, r. split; [assumption|]. split; [assumption|]. split; [assumption|]. rewrite Es. f_equal. symmetry.
  apply md_eq; try assumption; try congruence. intros i j Hi Hj.
  rewrite Nr, Ns by congruence. rewrite Cab, E1.
  transitivity (qsum (fun k => qsum (fun l => entry a i l * (entry b l k * entry c k j)) (md_rows b)) (md_cols b)).
  - apply qsum_ext. intros k Hk. rewrite Nab by congruence. rewrite Qcmult_comm, <- qsum_scale, E1. apply qsum_ext. intros. ring.
  - rewrite qsum_swap. apply qsum_ext. intros l Hl. rewrite Nbc by congruence. rewrite <- qsum_scale. reflexivity.
Qed.

Lemma md_transpose_mul_top : forall a b, md_ok a -> md_ok b -> md_cols a = md_rows b ->
  exists ab at' bt r, md_mul a b = Ok ab /\ md_transpose a = Ok at' /\ md_transpose b = Ok bt /\ md_transpose ab = Ok r /\ md_mul bt at' = Ok r.
Proof.
  intros a b Ha Hb E.
  destruct (proj2 (md_mul_top a b Ha Hb) E) as (ab & Eab & Oab & Rab & Cab & Nab).
  destruct (md_transpose_top a Ha) as (ta & Eta & Ota & Rta & Cta & Nta).
  destruct (md_transpose_top b Hb) as (tb & Etb & Otb & Rtb & Ctb & Ntb).
  destruct (md_transpose_top ab Oab) as (r & Er & Or & Rr & Cr & Nr).
  destruct (proj2 (md_mul_top tb ta Otb Ota) ltac:(congruence)) as (s & Es & Os & Rs & Cs & Ns).
  exists ab, ta, tb, r. do 4 (split; [assumption|]). rewrite Es. f_equal. symmetry. apply md_eq; try assumption; try congruence.
  intros i j Hi Hj. rewrite Nr, Ns by congruence. rewrite Nab by congruence. rewrite Ctb, E. apply qsum_ext. intros k Hk.
  rewrite Ntb, Nta by congruence. ring.
Qed.

(** the bound of the cells: no cell outside the matrix is ever read or written *)
Lemma md_transpose_involutive : forall a, md_ok a -> exists t, md_transpose a = Ok t /\ md_transpose t = Ok a.
Proof.
  intros a Ha. destruct (md_transpose_top a Ha) as (t & E & O & R & C & N). exists t. split; [assumption|].
  destruct (md_transpose_top t O) as (s & Es & Os & Rs & Cs & Ns). rewrite Es. f_equal. apply md_eq; try assumption; try congruence.
  intros i j Hi Hj. rewrite Ns, N by congruence. reflexivity.
Qed.
