(** The separating-axis theorem for convex polygons. *)
From Coq Require Import List ZArith QArith Qcanon Bool Lia Lqa Field.
From Verif Require Import Base BaseFacts LoopFacts ModelVec ModelAabb ModelPolygon SpecNurbs SpecPolygon ProofBspline ProofMinimize ProofIntegrate ProofPolygon.
Import ListNotations.
Open Scope Qc_scope.

(** ** a number between two lists *)
Lemma list_max (L : list Qc) : L <> [] -> exists m, In m L /\ forall l, In l L -> l <= m.
Proof.
  induction L as [|a L IH]; [congruence|]. intros _. destruct L as [|b L].
  - exists a. split; [left; reflexivity|]. intros l [->|[]]. qc_lra.
  - destruct IH as (m & Hm & M); [discriminate|]. destruct (Qcleb_spec a m).
    + exists m. split; [right; exact Hm|]. intros l [->|Hl]; [assumption|auto].
    + exists a. split; [left; reflexivity|]. intros l [->|Hl]; [qc_lra|]. specialize (M l Hl). qc_lra.
Qed.
Lemma list_min (L : list Qc) : L <> [] -> exists m, In m L /\ forall l, In l L -> m <= l.
Proof.
  intros H. destruct (list_max (map Qcopp L)) as (m & Hm & M); [destruct L; [congruence|discriminate]|].
  apply in_map_iff in Hm. destruct Hm as (x & <- & Hx). exists x. split; [exact Hx|]. intros l Hl. specialize (M (- l) (in_map _ _ _ Hl)). qc_lra.
Qed.
Lemma between (L U : list Qc) : (forall l u, In l L -> In u U -> l < u) -> exists t, (forall l, In l L -> l < t) /\ (forall u, In u U -> t < u).
Proof.
  intros H. destruct L as [|l0 L].
  - destruct U as [|u0 U]; [exists 0; split; intros ? []|]. destruct (list_min (u0 :: U)) as (m & _ & M); [discriminate|].
    exists (m - 1). split; [intros ? []|]. intros u Hu. specialize (M u Hu). qc_lra.
  - destruct (list_max (l0 :: L)) as (a & Ha & MA); [discriminate|]. destruct U as [|u0 U].
    + exists (a + 1). split; [|intros ? []]. intros l Hl. specialize (MA l Hl). qc_lra.
    + destruct (list_min (u0 :: U)) as (b & Hb & MB); [discriminate|]. pose proof (H a b Ha Hb).
      exists ((a + b) * qc 1 2). split; [intros l Hl; specialize (MA l Hl); qc_lra|intros u Hu; specialize (MB u Hu); qc_lra].
Qed.

(** ** nonnegative combinations *)
Inductive cone (V : list vec2) : Qc -> Qc -> Qc -> Prop :=
| cone0 : cone V 0 0 0
| cone_add v k x y s : In v V -> 0 <= k -> cone V x y s -> cone V (x + k * ux v) (y + k * uy v) (s + k).
Lemma cone_eq V x y s x' y' s' : cone V x y s -> x = x' -> y = y' -> s = s' -> cone V x' y' s'.
Proof. intros H -> -> ->. exact H. Qed.
Lemma cone_plus V x y s : cone V x y s -> forall x' y' s', cone V x' y' s' -> cone V (x + x') (y + y') (s + s').
Proof.
  induction 1 as [|v k x y s I K H IH]; intros x' y' s' H'.
  - eapply cone_eq; [exact H'| | |]; ring.
  - eapply cone_eq; [apply (cone_add V v k _ _ _ I K (IH _ _ _ H'))| | |]; ring.
Qed.
Lemma cone_scale V c x y s : 0 <= c -> cone V x y s -> cone V (c * x) (c * y) (c * s).
Proof.
  intros C. induction 1 as [|v k x y s I K H IH].
  - eapply cone_eq; [apply cone0| | |]; ring.
  - eapply cone_eq; [apply (cone_add V v (c * k) _ _ _ I (Qcmul_nonneg _ _ C K) IH)| | |]; ring.
Qed.
Lemma cone_one V v : In v V -> cone V (ux v) (uy v) 1.
Proof. intros I. eapply cone_eq; [apply (cone_add V v 1 0 0 0 I); [qc_lra|apply cone0]| | |]; ring. Qed.

Lemma Qcdiv_mul_pos a b : 0 < b -> a / b * b = a.
Proof. intros H. field. intros E. rewrite E in H. revert H. apply Qcle_not_lt, Qcle_refl. Qed.

(** Gordan's alternative in the plane, by elimination of y *)
Lemma gordan (V : list vec2) : (exists d, forall v, In v V -> 0 < v2dot v d) \/ exists s, 0 < s /\ cone V 0 0 s.
Proof.
  set (Z := filter (fun v => uy v =? 0) V). set (P := filter (fun v => 0 <? uy v) V). set (N := filter (fun v => uy v <? 0) V).
  set (X := map ux Z ++ flat_map (fun p => map (fun n => ux p * - uy n + ux n * uy p) N) P).
  assert (forall x, In x X -> exists s, 0 < s /\ cone V x 0 s) as XC.
  { intros x H. apply in_app_or in H. destruct H as [H|H].
    - apply in_map_iff in H. destruct H as (v & <- & H). apply filter_In in H. destruct H as (H & E). qcb. exists 1. split; [qc_lra|]. rewrite <- E. apply cone_one. exact H.
    - apply in_flat_map in H. destruct H as (p & Hp & H). apply in_map_iff in H. destruct H as (n & <- & Hn). apply filter_In in Hp, Hn. destruct Hp as (Ip & Ep), Hn as (I_n & En). qcb.
      exists (- uy n + uy p). split; [qc_lra|].
      eapply cone_eq; [apply cone_plus; [apply (cone_scale V (- uy n)); [qc_lra|apply cone_one, Ip]|apply (cone_scale V (uy p)); [qc_lra|apply cone_one, I_n]]| | |]; ring. }
  assert (forall sg, sg * sg = 1 -> (forall x, In x X -> 0 < sg * x) -> exists d, forall v, In v V -> 0 < v2dot v d) as Feas.
  { intros sg SG H.
    destruct (between (map (fun p => - (sg * ux p) / uy p) P) (map (fun n => sg * ux n / - uy n) N)) as (t & T1 & T2).
    - intros l u Hl Hu. apply in_map_iff in Hl, Hu. destruct Hl as (p & <- & Hp), Hu as (n & <- & Hn).
      assert (0 < sg * (ux p * - uy n + ux n * uy p)) as L.
      { apply H. apply in_or_app. right. apply in_flat_map. exists p. split; [exact Hp|]. apply in_map_iff. exists n. auto. }
      apply filter_In in Hp, Hn. destruct Hp as (_ & Ep), Hn as (_ & En). qcb.
      assert (0 < - uy n) as En' by qc_lra. set (b := - uy n) in *. clearbody b. clear En.
      apply Qcnot_le_lt. intros C.
      pose proof (Qcmult_le_compat_r _ _ (uy p * b) C ltac:(apply Qclt_le_weak, Qcmul_pos; assumption)) as D.
      replace (sg * ux n / b * (uy p * b)) with (sg * ux n / b * b * uy p) in D by ring.
      replace (- (sg * ux p) / uy p * (uy p * b)) with (- (sg * ux p) / uy p * uy p * b) in D by ring.
      rewrite !Qcdiv_mul_pos in D by assumption. qc_nra.
    - exists (V2 sg t). intros v Hv. unfold v2dot. cbn [ux uy].
      destruct (Qcltb_spec 0 (uy v)) as [E|E]; [|destruct (Qcltb_spec (uy v) 0) as [F|F]].
      + specialize (T1 (- (sg * ux v) / uy v)). pose proof (T1 ltac:(apply in_map_iff; exists v; split; [reflexivity|apply filter_In; split; [exact Hv|qcb; exact E]])) as T.
        pose proof (Qcmult_lt_compat_r _ _ (uy v) E T) as D. rewrite Qcdiv_mul_pos in D by exact E. qc_lra.
      + specialize (T2 (sg * ux v / - uy v)). pose proof (T2 ltac:(apply in_map_iff; exists v; split; [reflexivity|apply filter_In; split; [exact Hv|qcb; exact F]])) as T.
        assert (0 < - uy v) as F' by qc_lra. pose proof (Qcmult_lt_compat_r _ _ (- uy v) F' T) as D. rewrite Qcdiv_mul_pos in D by exact F'. qc_lra.
      + assert (uy v = 0) as E0 by qc_lra. rewrite E0. assert (0 < sg * ux v) as L; [|qc_lra].
        apply H. apply in_or_app. left. apply in_map. apply filter_In. split; [exact Hv|]. rewrite E0. qcb. reflexivity. }
  destruct (forallb (fun x => 0 <? x) X) eqn:E1.
  { left. apply (Feas 1); [ring|]. rewrite forallb_forall in E1. intros x Hx. specialize (E1 x Hx). qcb. qc_lra. }
  destruct (forallb (fun x => x <? 0) X) eqn:E2.
  { left. apply (Feas (- (1))); [ring|]. rewrite forallb_forall in E2. intros x Hx. specialize (E2 x Hx). qcb. qc_lra. }
  right.
  assert (forall f (l : list Qc), forallb f l = false -> exists x, In x l /\ f x = false) as FF.
  { intros f. induction l as [|x l IH]; cbn [forallb]; [discriminate|]. destruct (f x) eqn:E; cbn [andb].
    - intros H. destruct (IH H) as (z & Hz & Ez). exists z. auto using in_cons.
    - intros _. exists x. split; [left; reflexivity|exact E]. }
  destruct (FF _ _ E1) as (a & Ha & La). destruct (FF _ _ E2) as (b & Hb & Lb). qcb.
  destruct (XC a Ha) as (s & S0 & Ca). destruct (XC b Hb) as (r & R0 & Cb).
  destruct (Qceqb_spec a 0) as [->|NA]; [exists s; auto|]. assert (a < 0) as La' by (destruct (Qc_neq_or _ _ NA); [assumption|qc_lra]).
  exists (b * s + - a * r). split; [pose proof (Qcmul_nonneg b s Lb ltac:(qc_lra)); pose proof (Qcmul_pos (- a) r ltac:(qc_lra) R0); qc_lra|].
  eapply cone_eq; [apply cone_plus; [apply (cone_scale V b); [exact Lb|exact Ca]|apply (cone_scale V (- a)); [qc_lra|exact Cb]]| | |]; ring.
Qed.

Lemma cone_weights P x y s : cone P x y s -> exists w : nat -> Qc, (forall i, 0 <= w i) /\ qsum w (length P) = s /\
  x = qsum (fun i => w i * ux (pt P i)) (length P) /\ y = qsum (fun i => w i * uy (pt P i)) (length P).
Proof.
  induction 1 as [|v k x y s I K H (w & W & S & Ex & Ey)].
  - exists (fun _ => 0). split; [intros; qc_lra|]. split; [apply qsum_zero; reflexivity|]. split; symmetry; apply qsum_zero; intros; ring.
  - destruct (In_nth _ _ (V2 0 0) I) as (j & Hj & Ej). exists (fun i => w i + (if Nat.eqb i j then k else 0)).
    assert (forall (g : nat -> Qc) n, qsum (fun i => (if Nat.eqb i j then k else 0) * g i) n = if Nat.ltb j n then k * g j else 0) as D.
    { intros g. induction n; [reflexivity|]. cbn [qsum]. rewrite IHn. destruct (Nat.ltb_spec j n), (Nat.ltb_spec j (Datatypes.S n)), (Nat.eqb_spec n j); try lia; subst; ring. }
    assert (forall g : nat -> Qc, qsum (fun i => (w i + (if Nat.eqb i j then k else 0)) * g i) (length P) = qsum (fun i => w i * g i) (length P) + k * g j) as E.
    { intros g. transitivity (qsum (fun i => w i * g i + (if Nat.eqb i j then k else 0) * g i) (length P)); [apply qsum_ext; intros; ring|]. rewrite qsum_add, D. destruct (Nat.ltb_spec j (length P)); [reflexivity|lia]. }
    split; [intros i; specialize (W i); destruct (Nat.eqb i j); qc_lra|]. split; [|split].
    + transitivity (qsum (fun i => (w i + (if Nat.eqb i j then k else 0)) * 1) (length P)); [apply qsum_ext; intros; ring|]. rewrite E. rewrite (qsum_ext _ w) by (intros; ring). rewrite S. ring.
    + rewrite E, <- Ex. unfold pt. rewrite Ej. reflexivity.
    + rewrite E, <- Ey. unfold pt. rewrite Ej. reflexivity.
Qed.
Lemma cone_hull P x y s : 0 < s -> cone P x y s -> in_hull P (V2 (x / s) (y / s)).
Proof.
  intros S0 H. apply cone_weights in H. destruct H as (w & W & S & Ex & Ey). assert (s <> 0) as NZ by (intros E; rewrite E in S0; revert S0; apply Qcle_not_lt, Qcle_refl).
  assert (0 <= / s) as I0 by (apply Qclt_le_weak; replace (/ s) with (1 / s) by (field; exact NZ); apply Qcdiv_pos_lt; [exact S0|qc_lra]).
  exists (fun i => / s * w i). split; [intros i; apply Qcmul_nonneg; auto|]. split; [rewrite qsum_scale, S; field; exact NZ|]. cbn [ux uy]. split.
  - rewrite (qsum_ext _ (fun i => / s * (w i * ux (pt P i)))) by (intros; ring). rewrite qsum_scale, <- Ex. field. exact NZ.
  - rewrite (qsum_ext _ (fun i => / s * (w i * uy (pt P i)))) by (intros; ring). rewrite qsum_scale, <- Ey. field. exact NZ.
Qed.

(** two finite sets of points: their hulls meet or a line separates them *)
Lemma separation A B : hulls_meet A B \/ exists d, forall a b, In a A -> In b B -> v2dot b d < v2dot a d.
Proof.
  set (V := flat_map (fun a => map (fun b => v2sub a b) B) A).
  destruct (gordan V) as [(d & H)|(s & S0 & C)].
  - right. exists d. intros a b Ha Hb. specialize (H (v2sub a b)). pose proof (H ltac:(apply in_flat_map; exists a; split; [exact Ha|apply in_map; exact Hb])) as L. unfold v2dot, v2sub in *. cbn [ux uy] in L. qc_lra.
  - left. assert (forall x y s, cone V x y s -> exists xa ya xb yb, cone A xa ya s /\ cone B xb yb s /\ x = xa - xb /\ y = ya - yb) as G.
    { intros x y r. induction 1 as [|v k x y r I K H (xa & ya & xb & yb & CA & CB & Ex & Ey)].
      - exists 0, 0, 0, 0. split; [apply cone0|]. split; [apply cone0|]. split; ring.
      - apply in_flat_map in I. destruct I as (a & Ha & I). apply in_map_iff in I. destruct I as (b & <- & Hb).
        exists (xa + k * ux a), (ya + k * uy a), (xb + k * ux b), (yb + k * uy b). split; [apply cone_add; assumption|]. split; [apply cone_add; assumption|].
        unfold v2sub. cbn [ux uy]. rewrite Ex, Ey. split; ring. }
    destruct (G _ _ _ C) as (xa & ya & xb & yb & CA & CB & Ex & Ey). assert (xa = xb) as <- by qc_lra. assert (ya = yb) as <- by qc_lra.
    exists (V2 (xa / s) (ya / s)). split; apply cone_hull; assumption.
Qed.

(** ** cones of directions *)
Definition cross2 (a b : vec2) : Qc := ux a * uy b - uy a * ux b.
Definition v2neg (a : vec2) : vec2 := V2 (- ux a) (- uy a).
Definition incone (n1 n2 e : vec2) : Prop := 0 <= cross2 n1 e /\ 0 <= cross2 e n2.
Lemma cross2_anti a b : cross2 a b = - cross2 b a. Proof. unfold cross2. ring. Qed.
Lemma plucker a b c d : cross2 a b * cross2 c d = cross2 a c * cross2 b d + cross2 a d * cross2 c b.
Proof. unfold cross2. ring. Qed.
Lemma decompose_dot n1 n2 e v : cross2 n1 n2 * v2dot e v = cross2 e n2 * v2dot n1 v + cross2 n1 e * v2dot n2 v.
Proof. unfold cross2, v2dot. ring. Qed.

Lemma mul_nonneg_cancel a b : 0 < a -> 0 <= a * b -> 0 <= b.
Proof. intros A H. destruct (Qcleb_spec 0 b) as [|N]; [assumption|]. exfalso. qc_nra. Qed.
Lemma mul_pos_cancel a b : 0 < a -> 0 < a * b -> 0 < b.
Proof. intros A H. destruct (Qcltb_spec 0 b) as [|N]; [assumption|]. exfalso. qc_nra. Qed.
Lemma mul_nonpos a b : a <= 0 -> b <= 0 -> 0 <= a * b.
Proof. intros. qc_nra. Qed.

(** a nonzero vector of the cone is strictly inside one of its half-planes *)
Lemma incone_pos n1 n2 d : 0 < cross2 n1 n2 -> incone n1 n2 d -> d <> V2 0 0 -> 0 < cross2 n1 d + cross2 d n2.
Proof.
  intros C (A & B) NZ. destruct (Qcltb_spec 0 (cross2 n1 d + cross2 d n2)) as [|N]; [assumption|]. exfalso.
  assert (cross2 n1 d = 0) as A0 by qc_lra. assert (cross2 d n2 = 0) as B0 by qc_lra.
  apply NZ. pose proof (decompose_dot n1 n2 d (V2 1 0)) as X. pose proof (decompose_dot n1 n2 d (V2 0 1)) as Y. rewrite A0, B0 in X, Y.
  assert (forall x, cross2 n1 n2 * x = 0 -> x = 0) as Z.
  { intros x H. apply Qcmult_integral in H. destruct H as [H|H]; [rewrite H in C; revert C; vm_compute; discriminate|exact H]. }
  unfold v2dot in X, Y. cbn [ux uy] in X, Y. apply v2_eq; cbn [ux uy]; apply Z; qc_lra.
Qed.

Lemma pick_left n1 n2 m1 m2 d : 0 < cross2 n1 n2 -> 0 < cross2 m1 m2 -> incone n1 n2 d -> incone m1 m2 d -> d <> V2 0 0 ->
  0 <= cross2 m1 n1 -> incone m1 m2 n1.
Proof.
  intros N M (A & B) (C & D) NZ H. split; [exact H|].
  pose proof (plucker n1 m2 m1 d) as P. rewrite (cross2_anti n1 m1), (cross2_anti m2 d) in P.
  destruct (Qceqb_spec (cross2 m1 d) 0) as [E|E].
  - pose proof (incone_pos m1 m2 d M (conj C D) NZ) as X. rewrite E in X, P.
    pose proof (Qcmul_nonneg (cross2 m1 n1) (cross2 d m2) H D) as T1. pose proof (Qcmul_nonneg (cross2 n1 d) (cross2 m1 m2) A ltac:(qc_lra)) as T2.
    assert (cross2 n1 d * cross2 m1 m2 = 0) as Z by qc_lra. apply Qcmult_integral in Z. destruct Z as [Z|Z]; [|rewrite Z in M; revert M; vm_compute; discriminate].
    pose proof (plucker n1 n2 d m2) as Q. rewrite Z in Q.
    assert (0 < cross2 d m2) as DM by qc_lra. pose proof (Qcmul_pos _ _ N DM) as NP.
    assert (0 < cross2 d n2) as DN by (pose proof (incone_pos n1 n2 d N (conj A B) NZ) as Y; rewrite Z in Y; qc_lra).
    apply Qclt_le_weak. apply (mul_pos_cancel (cross2 d n2)); [exact DN|]. qc_lra.
  - assert (0 < cross2 m1 d) as E' by (destruct (Qc_neq_or _ _ E); [exfalso; qc_lra|assumption]).
    apply (mul_nonneg_cancel (cross2 m1 d)); [exact E'|].
    pose proof (Qcmul_nonneg (cross2 m1 n1) (cross2 d m2) H D) as T1. pose proof (Qcmul_nonneg (cross2 n1 d) (cross2 m1 m2) A ltac:(qc_lra)) as T2. qc_lra.
Qed.
Definition sw (a : vec2) : vec2 := V2 (uy a) (ux a).
Lemma cross2_sw a b : cross2 (sw a) (sw b) = cross2 b a. Proof. unfold cross2, sw. cbn. ring. Qed.
Lemma pick_right n1 n2 m1 m2 d : 0 < cross2 n1 n2 -> 0 < cross2 m1 m2 -> incone n1 n2 d -> incone m1 m2 d -> d <> V2 0 0 ->
  0 <= cross2 n2 m2 -> incone m1 m2 n2.
Proof.
  intros N M (A & B) (C & D) NZ H.
  destruct (pick_left (sw n2) (sw n1) (sw m2) (sw m1) (sw d)) as (X & Y); unfold incone; rewrite ?cross2_sw; auto.
  - intros E. apply NZ. apply v2_inj in E. destruct E. apply v2_eq; assumption.
  - rewrite cross2_sw in X, Y. split; assumption.
Qed.
Lemma self_cone n1 n2 : 0 < cross2 n1 n2 -> incone n1 n2 n1 /\ incone n1 n2 n2.
Proof. intros H. assert (forall a, cross2 a a = 0) as Z by (intros; unfold cross2; ring). split; split; rewrite ?Z; qc_lra. Qed.

Lemma scal1 c V a x b y : 0 < V -> c * V = a * x + b * y -> 0 <= a -> 0 <= b -> x <= 0 -> y <= 0 -> c <= 0.
Proof.
  intros HV E A B X Y. pose proof (Qcmul_nonneg a (- x) A ltac:(clear - X; qc_lra)). pose proof (Qcmul_nonneg b (- y) B ltac:(clear - Y; qc_lra)).
  destruct (Qcltb_spec 0 c) as [C|C]; [exfalso|apply Qcnot_lt_le, C]. pose proof (Qcmul_pos _ _ C HV). qc_lra.
Qed.
Lemma scal2 c fd a f1 b f2 : c <= 0 -> 0 < fd -> 0 < f1 -> 0 < f2 -> 0 <= a -> 0 <= b -> c * fd = a * f1 + b * f2 -> b = 0.
Proof.
  intros C D F1 F2 A B E. pose proof (Qcmul_nonneg a f1 A (Qclt_le_weak _ _ F1)). pose proof (Qcmul_nonneg b f2 B (Qclt_le_weak _ _ F2)).
  pose proof (Qcmul_nonneg (- c) fd ltac:(clear - C; qc_lra) (Qclt_le_weak _ _ D)). assert (b * f2 = 0) as Z by qc_lra.
  apply Qcmult_integral in Z. destruct Z as [Z|Z]; [exact Z|]. rewrite Z in F2. exfalso. revert F2. apply Qcle_not_lt, Qcle_refl.
Qed.
Lemma scal3 x fd f1 V k : x <= 0 -> 0 < fd -> 0 < f1 -> 0 < V -> x * fd = f1 * V + 0 * k -> False.
Proof. intros X D F HV E. pose proof (Qcmul_pos _ _ F HV). pose proof (Qcmul_nonneg (- x) fd ltac:(clear - X; qc_lra) (Qclt_le_weak _ _ D)). qc_lra. Qed.
Lemma dot0 v : ~ 0 < v2dot (V2 0 0) v.
Proof. unfold v2dot. cbn [ux uy]. intros H. qc_lra. Qed.
Lemma cross0 v : ~ 0 < cross2 (V2 0 0) v /\ ~ 0 < cross2 v (V2 0 0).
Proof. unfold cross2. cbn [ux uy]. split; intros H; qc_lra. Qed.
Lemma anti_nonneg a b : ~ 0 <= cross2 a b -> 0 <= cross2 b a.
Proof. intros H. rewrite cross2_anti. apply Qcnot_le_lt in H. qc_lra. Qed.
Lemma cone_pick n1 n2 m1 m2 d v : 0 < cross2 n1 n2 -> 0 < cross2 m1 m2 -> incone n1 n2 d -> incone m1 m2 d -> 0 < v2dot d v ->
  exists e, In e [n1; n2; m1; m2] /\ incone n1 n2 e /\ incone m1 m2 e /\ 0 < v2dot e v.
Proof.
  intros N M CN CM V. assert (d <> V2 0 0) as NZ by (intros ->; exact (dot0 _ V)).
  assert (exists e1, In e1 [n1; m1] /\ incone n1 n2 e1 /\ incone m1 m2 e1 /\ 0 <= cross2 e1 d) as (e1 & I1 & A1 & B1 & D1).
  { destruct (Qcleb_spec 0 (cross2 m1 n1)) as [L|L].
    - exists n1. split; [left; reflexivity|]. split; [exact (proj1 (self_cone _ _ N))|]. split; [apply (pick_left n1 n2 m1 m2 d); assumption|exact (proj1 CN)].
    - exists m1. split; [right; left; reflexivity|]. split; [|split; [exact (proj1 (self_cone _ _ M))|exact (proj1 CM)]]. apply (pick_left m1 m2 n1 n2 d); try assumption. apply anti_nonneg; assumption. }
  assert (exists e2, In e2 [n2; m2] /\ incone n1 n2 e2 /\ incone m1 m2 e2 /\ 0 <= cross2 d e2) as (e2 & I2 & A2 & B2 & D2).
  { destruct (Qcleb_spec 0 (cross2 n2 m2)) as [L|L].
    - exists n2. split; [left; reflexivity|]. split; [exact (proj2 (self_cone _ _ N))|]. split; [apply (pick_right n1 n2 m1 m2 d); assumption|exact (proj2 CN)].
    - exists m2. split; [right; left; reflexivity|]. split; [|split; [exact (proj2 (self_cone _ _ M))|exact (proj2 CM)]]. apply (pick_right m1 m2 n1 n2 d); try assumption. apply anti_nonneg; assumption. }
  assert (forall e, In e [n1; m1] -> In e [n1; n2; m1; m2]) as J1 by (intros e [->|[->|[]]]; cbn; auto).
  assert (forall e, In e [n2; m2] -> In e [n1; n2; m1; m2]) as J2 by (intros e [->|[->|[]]]; cbn; auto).
  destruct (Qcltb_spec 0 (v2dot e1 v)) as [L1|L1]; [exists e1; auto|]. destruct (Qcltb_spec 0 (v2dot e2 v)) as [L2|L2]; [exists e2; auto|]. exfalso.
  apply Qcnot_lt_le in L1, L2. pose proof (decompose_dot e1 e2 d v) as P.
  pose proof (scal1 _ _ _ _ _ _ V P D2 D1 L1 L2) as LE.
  assert (e1 <> V2 0 0) as Z1 by (intros E; destruct I1 as [X|[X|[]]]; [rewrite <- X in E; rewrite E in N; exact (proj1 (cross0 _) N)|rewrite <- X in E; rewrite E in M; exact (proj1 (cross0 _) M)]).
  assert (e2 <> V2 0 0) as Z2 by (intros E; destruct I2 as [X|[X|[]]]; [rewrite <- X in E; rewrite E in N; exact (proj2 (cross0 _) N)|rewrite <- X in E; rewrite E in M; exact (proj2 (cross0 _) M)]).
  set (f := fun x => cross2 n1 x + cross2 x n2).
  pose proof (incone_pos n1 n2 d N CN NZ : 0 < f d) as Fd. pose proof (incone_pos n1 n2 e1 N A1 Z1 : 0 < f e1) as F1. pose proof (incone_pos n1 n2 e2 N A2 Z2 : 0 < f e2) as F2.
  assert (cross2 e1 e2 * f d = cross2 d e2 * f e1 + cross2 e1 d * f e2) as Q by (unfold f, cross2; ring).
  pose proof (scal2 _ _ _ _ _ _ LE Fd F1 F2 D2 D1 Q) as Z.
  assert (v2dot e1 v * f d = f e1 * v2dot d v + cross2 e1 d * (ux v * (ux n1 - ux n2) + uy v * (uy n1 - uy n2))) as R by (unfold f, cross2, v2dot; ring).
  rewrite Z in R. exact (scal3 _ _ _ _ _ L1 Fd F1 V R).
Qed.

(** ** vertices of a convex polygon *)
Lemma turn_cyc a b c : turn a b c = turn b c a. Proof. unfold turn. ring. Qed.
Definition pred_in (P : list vec2) (i : nat) : nat := match i with O => (length P - 1)%nat | S k => k end.
Lemma pred_lt P i : (i < length P)%nat -> (pred_in P i < length P)%nat.
Proof. unfold pred_in. destruct i; lia. Qed.
Lemma succ_pred P i : (i < length P)%nat -> succ_in P (pred_in P i) = i.
Proof. intros H. unfold succ_in, pred_in. destruct i; destruct (Nat.eqb_spec (S (match _ with O => _ | S k => k end)) (length P)) || idtac; try lia.
  - destruct (Nat.eqb_spec (S (length P - 1)) (length P)); lia.
  - destruct (Nat.eqb_spec (S i) (length P)); lia. Qed.
Lemma ccw_edge P i k : convex_ccw P -> (i < length P)%nat -> (k < length P)%nat -> 0 <= turn (pt P i) (pt P (succ_in P i)) (pt P k).
Proof.
  intros (L & H) Hi Hk. unfold succ_in. destruct (Nat.eqb_spec (S i) (length P)) as [E|E].
  - destruct (Nat.eq_dec k 0) as [->|N0]; [unfold turn; qc_lra|]. destruct (Nat.eq_dec k i) as [->|N1]; [unfold turn; qc_lra|].
    rewrite turn_cyc. apply Qclt_le_weak, H; lia.
  - destruct (Nat.eq_dec k i) as [->|N0]; [unfold turn; qc_lra|]. destruct (Nat.eq_dec k (S i)) as [->|N1]; [unfold turn; qc_lra|].
    destruct (Nat.lt_ge_cases k i) as [C|C].
    + rewrite <- turn_cyc. apply Qclt_le_weak, H; lia.
    + apply Qclt_le_weak, H; lia.
Qed.
Lemma ccw_corner P i : convex_ccw P -> (i < length P)%nat -> 0 < turn (pt P (pred_in P i)) (pt P i) (pt P (succ_in P i)).
Proof.
  intros (L & H) Hi. unfold succ_in, pred_in. destruct i as [|i].
  - destruct (Nat.eqb_spec 1 (length P)); [lia|]. rewrite turn_cyc. apply H; lia.
  - destruct (Nat.eqb_spec (S (S i)) (length P)); [rewrite <- turn_cyc|]; apply H; lia.
Qed.

(** an edge normal, either way round *)
Definition is_axis (P : list vec2) (n : vec2) : Prop := In n (edge_axes P) \/ In (v2neg n) (edge_axes P).

Lemma vertex_cone_ccw P i d : convex_ccw P -> (i < length P)%nat -> (forall q, In q P -> v2dot (pt P i) d <= v2dot q d) ->
  exists n1 n2, is_axis P n1 /\ is_axis P n2 /\ 0 < cross2 n1 n2 /\ incone n1 n2 d /\
    forall e, incone n1 n2 e -> forall q, In q P -> v2dot (pt P i) e <= v2dot q e.
Proof.
  intros C Hi M. set (a := pt P (pred_in P i)). set (b := pt P i). set (c := pt P (succ_in P i)).
  pose proof (ccw_corner P i C Hi) as T. fold a b c in T.
  exists (V2 (- (uy b - uy a)) (ux b - ux a)), (V2 (- (uy c - uy b)) (ux c - ux b)).
  assert (forall q, In q P -> 0 <= turn a b q) as LA.
  { intros q Hq. destruct (In_nth _ _ (V2 0 0) Hq) as (k & Hk & <-). pose proof (ccw_edge P (pred_in P i) k C (pred_lt P i Hi) Hk) as X. rewrite succ_pred in X by exact Hi. exact X. }
  assert (forall q, In q P -> 0 <= turn b c q) as LB.
  { intros q Hq. destruct (In_nth _ _ (V2 0 0) Hq) as (k & Hk & <-). exact (ccw_edge P i k C Hi Hk). }
  assert (In a P) as Ia by (apply nth_In, pred_lt, Hi). assert (In c P) as Ic by (apply nth_In, succ_lt, Hi).
  split; [left; apply edge_axes_In; exists (pred_in P i); split; [apply pred_lt, Hi|unfold axis_at; rewrite succ_pred by exact Hi; reflexivity]|].
  split; [left; apply edge_axes_In; exists i; split; [exact Hi|reflexivity]|].
  assert (cross2 (V2 (- (uy b - uy a)) (ux b - ux a)) (V2 (- (uy c - uy b)) (ux c - ux b)) = turn a b c) as D by (unfold cross2, turn; cbn [ux uy]; ring).
  split; [rewrite D; exact T|]. split.
  - pose proof (M a Ia) as Ma. pose proof (M c Ic) as Mc. fold b in Ma, Mc. clear - Ma Mc. unfold incone, cross2, v2dot in *. cbn [ux uy]. split; qc_lra.
  - intros e (E1 & E2) q Hq. specialize (LA q Hq). specialize (LB q Hq). fold b. clear - T E1 E2 LA LB D.
    set (n1 := V2 (- (uy b - uy a)) (ux b - ux a)) in *. set (n2 := V2 (- (uy c - uy b)) (ux c - ux b)) in *.
    pose proof (decompose_dot n1 n2 e (v2sub q b)) as X.
    assert (v2dot n1 (v2sub q b) = turn a b q) as X1 by (unfold n1, v2dot, v2sub, turn; cbn [ux uy]; ring).
    assert (v2dot n2 (v2sub q b) = turn b c q) as X2 by (unfold n2, v2dot, v2sub, turn; cbn [ux uy]; ring).
    rewrite X1, X2, D in X. pose proof (Qcmul_nonneg _ _ E2 LA) as Y1. pose proof (Qcmul_nonneg _ _ E1 LB) as Y2.
    assert (0 <= v2dot e (v2sub q b)) as G by (apply (mul_nonneg_cancel (turn a b c)); [exact T|]; rewrite X; clear - Y1 Y2; qc_lra).
    clear - G. unfold v2dot, v2sub in *. cbn [ux uy] in G. qc_lra.
Qed.

Lemma pt_rev P j : (j < length P)%nat -> pt (rev P) j = pt P (length P - 1 - j).
Proof. intros H. unfold pt. rewrite rev_nth by exact H. f_equal. lia. Qed.
Lemma axes_rev P n : In n (edge_axes (rev P)) -> In (v2neg n) (edge_axes P).
Proof.
  intros H. apply edge_axes_In in H. destruct H as (j & Hj & ->). rewrite rev_length in Hj. apply edge_axes_In.
  assert (succ_in (rev P) j < length P)%nat as Hs by (pose proof (succ_lt (rev P) j) as X; rewrite rev_length in X; apply X, Hj).
  exists (length P - 1 - succ_in (rev P) j)%nat. split; [lia|].
  assert (succ_in P (length P - 1 - succ_in (rev P) j) = length P - 1 - j)%nat as E.
  { unfold succ_in in *. rewrite rev_length in *. destruct (Nat.eqb_spec (S j) (length P)); repeat match goal with |- context [Nat.eqb ?a ?b] => destruct (Nat.eqb_spec a b) end; lia. }
  unfold axis_at, v2neg. rewrite E. rewrite !pt_rev by assumption. cbn [ux uy]. f_equal; ring.
Qed.
Lemma v2neg_neg n : v2neg (v2neg n) = n.
Proof. apply v2_eq; cbn; ring. Qed.
Lemma is_axis_rev P n : is_axis (rev P) n -> is_axis P n.
Proof. intros [H|H]; apply axes_rev in H; [right; exact H|left; rewrite v2neg_neg in H; exact H]. Qed.

Lemma vertex_cone P i d : convex_polygon P -> (i < length P)%nat -> (forall q, In q P -> v2dot (pt P i) d <= v2dot q d) ->
  exists n1 n2, is_axis P n1 /\ is_axis P n2 /\ 0 < cross2 n1 n2 /\ incone n1 n2 d /\
    forall e, incone n1 n2 e -> forall q, In q P -> v2dot (pt P i) e <= v2dot q e.
Proof.
  intros [C|C] Hi M; [apply vertex_cone_ccw; assumption|].
  destruct (vertex_cone_ccw (rev P) (length P - 1 - i) d C) as (n1 & n2 & A1 & A2 & X & Y & Z).
  - rewrite rev_length. lia.
  - intros q Hq. rewrite pt_rev by lia. replace (length P - 1 - (length P - 1 - i))%nat with i by lia. apply M. apply in_rev. exact Hq.
  - exists n1, n2. split; [apply is_axis_rev, A1|]. split; [apply is_axis_rev, A2|]. split; [exact X|]. split; [exact Y|].
    intros e He q Hq. specialize (Z e He q). rewrite pt_rev in Z by lia. replace (length P - 1 - (length P - 1 - i))%nat with i in Z by lia. apply Z. apply in_rev in Hq. exact Hq.
Qed.

Lemma extreme_vertex P d : P <> [] -> exists i, (i < length P)%nat /\ forall q, In q P -> v2dot (pt P i) d <= v2dot q d.
Proof.
  intros H. destruct (list_min (map (fun q => v2dot q d) P)) as (m & Hm & M); [destruct P; [congruence|discriminate]|].
  apply in_map_iff in Hm. destruct Hm as (p & <- & Hp). destruct (In_nth _ _ (V2 0 0) Hp) as (i & Hi & E).
  exists i. split; [exact Hi|]. intros q Hq. unfold pt. rewrite E. apply M. apply (in_map (fun q => v2dot q d)). exact Hq.
Qed.
Lemma convex_nonempty P : convex_polygon P -> P <> [].
Proof. intros [[L _]|[L _]]; [|rewrite rev_length in L]; destruct P; [cbn in L; lia|discriminate|cbn in L; lia|discriminate]. Qed.

(** the separating-axis theorem *)
Lemma sat_axis A B : convex_polygon A -> convex_polygon B -> ~ hulls_meet A B ->
  exists e, (is_axis A e \/ is_axis B e) /\ exists c1 c2, (forall b, In b B -> v2dot b e <= c1) /\ (forall a, In a A -> c2 <= v2dot a e) /\ c1 < c2.
Proof.
  intros CA CB ND. destruct (separation A B) as [H|(d & H)]; [contradiction|].
  destruct (extreme_vertex A d (convex_nonempty A CA)) as (i & Hi & Mi). destruct (extreme_vertex B (v2neg d) (convex_nonempty B CB)) as (j & Hj & Mj).
  destruct (vertex_cone A i d CA Hi Mi) as (n1 & n2 & N1 & N2 & CN & DN & VN). destruct (vertex_cone B j (v2neg d) CB Hj Mj) as (m1 & m2 & M1 & M2 & CM & DM & VM).
  assert (forall a b, cross2 (v2neg a) (v2neg b) = cross2 a b) as NN by (intros; unfold cross2, v2neg; cbn [ux uy]; ring).
  destruct (cone_pick n1 n2 (v2neg m1) (v2neg m2) d (v2sub (pt A i) (pt B j))) as (e & Ie & En & Em & Pe); try assumption.
  - rewrite NN. exact CM.
  - destruct DM as (D1 & D2). rewrite <- (v2neg_neg d). split; rewrite NN; assumption.
  - pose proof (H (pt A i) (pt B j) (nth_In _ _ Hi) (nth_In _ _ Hj)) as L. clear - L. unfold v2dot, v2sub in *. cbn [ux uy]. qc_lra.
  - exists e. split.
    + assert (forall P n, is_axis P n -> is_axis P (v2neg n)) as AN by (intros P n [X|X]; [right; rewrite v2neg_neg; exact X|left; exact X]).
      destruct Ie as [<-|[<-|[<-|[<-|[]]]]]; auto.
    + exists (v2dot (pt B j) e), (v2dot (pt A i) e). split; [|split].
      * intros b Hb. pose proof (VM (v2neg e)) as X. assert (incone m1 m2 (v2neg e)) as IC.
        { destruct Em as (E1 & E2). rewrite <- (v2neg_neg e) in E1, E2. rewrite NN in E1, E2. split; assumption. }
        specialize (X IC b Hb). unfold v2neg in X. rewrite !v2dot_neg in X. clear - X. qc_lra.
      * intros a Ha. apply VN; assumption.
      * clear - Pe. unfold v2dot, v2sub in *. cbn [ux uy] in Pe. qc_lra.
Qed.

(** ** the projections are finite and tight *)
Lemma Qcabs_mul_bound x y B C : - B <= x -> x <= B -> - C <= y -> y <= C -> - (B * C) <= x * y /\ x * y <= B * C.
Proof.
  intros. assert (0 <= (B - x) * (C + y)) by (apply Qcmul_nonneg; qc_lra). assert (0 <= (B + x) * (C - y)) by (apply Qcmul_nonneg; qc_lra).
  assert (0 <= (B - x) * (C - y)) by (apply Qcmul_nonneg; qc_lra). assert (0 <= (B + x) * (C + y)) by (apply Qcmul_nonneg; qc_lra). split; qc_nra.
Qed.
Lemma four_bound : let B := Qc_of_Z (2 ^ 500) in B * (B + B) + B * (B + B) <= DBL_MAX.
Proof. vm_compute. discriminate. Qed.
Lemma moderate_proj P Q i p : moderate P -> moderate Q -> (i < length P)%nat -> In p Q -> - DBL_MAX <= v2dot p (axis_at P i) /\ v2dot p (axis_at P i) <= DBL_MAX.
Proof.
  intros MP MQ Hi Hp. unfold moderate in *. set (B := Qc_of_Z (2 ^ 500)) in *. pose proof four_bound as F. cbv zeta in F. fold B in F. clearbody B.
  destruct (MP (pt P i) (nth_In _ _ Hi)) as (A1 & A2 & A3 & A4). destruct (MP (pt P (succ_in P i)) (nth_In _ _ (succ_lt P i Hi))) as (B1 & B2 & B3 & B4). destruct (MQ p Hp) as (C1 & C2 & C3 & C4).
  unfold v2dot, axis_at. cbn [ux uy].
  destruct (Qcabs_mul_bound (ux p) (- (uy (pt P (succ_in P i)) - uy (pt P i))) B (B + B) C1 C2) as (X1 & X2); [clear - A3 A4 B3 B4; qc_lra|clear - A3 A4 B3 B4; qc_lra|].
  destruct (Qcabs_mul_bound (uy p) (ux (pt P (succ_in P i)) - ux (pt P i)) B (B + B) C3 C4) as (Y1 & Y2); [clear - A1 A2 B1 B2; qc_lra|clear - A1 A2 B1 B2; qc_lra|].
  generalize dependent (B * (B + B)). intros K F X1 X2 Y1 Y2.
  set (s := ux p * _) in *. set (t := uy p * _) in *. clearbody s t. generalize dependent DBL_MAX. intros D F. clear - F X1 X2 Y1 Y2. split; qc_lra.
Qed.
Lemma project_attained P ax : P <> [] -> (forall p, In p P -> - DBL_MAX <= v2dot p ax /\ v2dot p ax <= DBL_MAX) ->
  (exists p, In p P /\ fst (project_polygon P ax) = v2dot p ax) /\ (exists p, In p P /\ snd (project_polygon P ax) = v2dot p ax).
Proof.
  intros NE R. pose proof (fold_minmax (fun p => v2dot p ax) P DBL_MAX DBL_LOWEST) as H. cbv zeta in H. unfold project_polygon.
  destruct H as ((A1 & A2) & (B1 & B2) & C & D). destruct P as [|p0 P]; [congruence|]. destruct (R p0 (or_introl eq_refl)) as (R1 & R2).
  split.
  - destruct C as [C|C]; [|exact C]. exists p0. split; [left; reflexivity|]. specialize (A2 p0 (or_introl eq_refl)). rewrite C in A2 |- *. apply Qcle_antisym; assumption.
  - destruct D as [D|D]; [|exact D]. exists p0. split; [left; reflexivity|]. specialize (B2 p0 (or_introl eq_refl)). rewrite D in B2 |- *. apply Qcle_antisym; assumption.
Qed.

Lemma distance_complete : forall A B, convex_polygon A -> convex_polygon B -> moderate A -> moderate B -> ~ hulls_meet A B -> polygon_relationship A B = DISTANCE.
Proof.
  intros A B CA CB MA MB ND. apply relationship_distance. destruct (sat_axis A B CA CB ND) as (e & IA & c1 & c2 & HB & HA & L).
  assert (exists ax, In ax (edge_axes A ++ edge_axes B) /\ (ax = e \/ ax = v2neg e)) as (ax & Iax & E).
  { destruct IA as [[X|X]|[X|X]]; [exists e|exists (v2neg e)|exists e|exists (v2neg e)]; (split; [apply in_or_app; auto|auto]). }
  exists ax. split; [exact Iax|].
  assert (forall Q, moderate Q -> forall p, In p Q -> - DBL_MAX <= v2dot p ax /\ v2dot p ax <= DBL_MAX) as R.
  { intros Q MQ p Hp. apply in_app_or in Iax. destruct Iax as [I|I]; apply edge_axes_In in I; destruct I as (i & Hi & ->); eapply moderate_proj; eassumption. }
  destruct (project_attained A ax (convex_nonempty A CA) (R A MA)) as ((pa & Ipa & Ea) & (qa & Iqa & Fa)).
  destruct (project_attained B ax (convex_nonempty B CB) (R B MB)) as ((pb & Ipb & Eb) & (qb & Iqb & Fb)).
  unfold check_overlap. rewrite Ea, Eb, Fa, Fb. apply andb_false_iff. destruct E as [->| ->].
  - left. qcb. specialize (HB qb Iqb). specialize (HA pa Ipa). clear - HB HA L. qc_lra.
  - right. qcb. unfold v2neg. rewrite !v2dot_neg. specialize (HB pb Ipb). specialize (HA qa Iqa). clear - HB HA L. qc_lra.
Qed.
