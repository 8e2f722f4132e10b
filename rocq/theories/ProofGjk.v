(** The GJK test: what its two answers mean, and that it runs. *)
From Coq Require Import List ZArith QArith Qcanon Bool Lia Lqa Field.
From Verif Require Import Base BaseFacts LoopFacts ModelVec ModelAabb ModelNurbs ModelGjk SpecNurbs SpecGjk
  ProofBspline ProofMinimize ProofSat ProofClosest.
Import ListNotations.
Open Scope Qc_scope.

(** ** hulls *)
Lemma hull_half3 P p d c : in_hull3 P p -> (forall q, In q P -> v3dot q d <= c) -> v3dot p d <= c.
Proof.
  intros (w & W & S1 & Ex & Ey & Ez) H. unfold v3dot. rewrite Ex, Ey, Ez.
  assert (qsum (fun i => w i * v3dot (pt3 P i) d) (length P) <= qsum (fun i => c * w i) (length P)) as L.
  { apply qsum_le. intros i Hi. pose proof (H (pt3 P i) (nth_In _ _ Hi)) as L. pose proof (Qcmul_nonneg (w i) (c - v3dot (pt3 P i) d) (W i) ltac:(clear - L; qc_lra)) as M. clear - M. qc_lra. }
  rewrite qsum_scale, S1 in L.
  match goal with |- ?x <= _ => replace x with (qsum (fun i => w i * v3dot (pt3 P i) d) (length P)) end; [clear - L; qc_lra|].
  transitivity (vx d * qsum (fun i => w i * vx (pt3 P i)) (length P) + vy d * qsum (fun i => w i * vy (pt3 P i)) (length P) + vz d * qsum (fun i => w i * vz (pt3 P i)) (length P)); [|ring].
  rewrite <- !qsum_scale, <- !qsum_add. apply qsum_ext. intros. unfold v3dot. ring.
Qed.
Lemma v3dot_neg p d : v3dot p (v3neg d) = - v3dot p d. Proof. v3ring. Qed.
Lemma hull_half3_lo P p d c : in_hull3 P p -> (forall q, In q P -> c <= v3dot q d) -> c <= v3dot p d.
Proof.
  intros H L. pose proof (hull_half3 P p (v3neg d) (- c) H) as X. rewrite v3dot_neg in X.
  cut (- v3dot p d <= - c); [intros Y; clear - Y; qc_lra|]. apply X. intros q Hq. rewrite v3dot_neg. specialize (L q Hq). clear - L. qc_lra.
Qed.
Lemma apart3 A B d : (forall a b, In a A -> In b B -> v3dot (v3sub a b) d < 0) -> ~ hulls_meet3 A B.
Proof.
  intros H (p & HA & HB). destruct A as [|a0 A'].
  { destruct HA as (w & _ & S & _). discriminate S. }
  set (A := a0 :: A') in *. destruct (list_max (map (fun a => v3dot a d) A)) as (m & Hm & M); [discriminate|].
  apply in_map_iff in Hm. destruct Hm as (a & <- & Ia).
  assert (v3dot p d <= v3dot a d) as U by (apply (hull_half3 A); [exact HA|]; intros q Hq; apply M, (in_map (fun a => v3dot a d)), Hq).
  (* the smallest product over B exceeds that of a *)
  destruct B as [|b0 B']. { destruct HB as (w & _ & S & _). discriminate S. }
  set (B := b0 :: B') in *. destruct (list_min (map (fun b => v3dot b d) B)) as (l & Hl & ML); [discriminate|].
  apply in_map_iff in Hl. destruct Hl as (b & <- & Ib).
  assert (v3dot b d <= v3dot p d) as V by (apply (hull_half3_lo B); [exact HB|]; intros q Hq; apply ML, (in_map (fun b => v3dot b d)), Hq).
  specialize (H a b Ia Ib). assert (v3dot (v3sub a b) d = v3dot a d - v3dot b d) as E by v3ring. rewrite E in H. clear - U V H. qc_lra.
Qed.

(** nonnegative combinations *)
Inductive cone3 (V : list vec3) : vec3 -> Qc -> Prop :=
| cone30 : cone3 V (V3 0 0 0) 0
| cone3_add v k p s : In v V -> 0 <= k -> cone3 V p s -> cone3 V (v3add p (v3scale v k)) (s + k).
Lemma cone3_weights P p s : cone3 P p s -> exists w : nat -> Qc, (forall i, 0 <= w i) /\ qsum w (length P) = s /\
  vx p = qsum (fun i => w i * vx (pt3 P i)) (length P) /\ vy p = qsum (fun i => w i * vy (pt3 P i)) (length P) /\ vz p = qsum (fun i => w i * vz (pt3 P i)) (length P).
Proof.
  induction 1 as [|v k p s I K H (w & W & S & Ex & Ey & Ez)].
  - exists (fun _ => 0). split; [intros; qc_lra|]. split; [apply qsum_zero; reflexivity|]. repeat split; symmetry; apply qsum_zero; intros; ring.
  - destruct (In_nth _ _ (V3 0 0 0) I) as (j & Hj & Ej). exists (fun i => w i + (if Nat.eqb i j then k else 0)).
    assert (forall (g : nat -> Qc) n, qsum (fun i => (if Nat.eqb i j then k else 0) * g i) n = if Nat.ltb j n then k * g j else 0) as D.
    { intros g. induction n; [reflexivity|]. cbn [qsum]. rewrite IHn. destruct (Nat.ltb_spec j n), (Nat.ltb_spec j (Datatypes.S n)), (Nat.eqb_spec n j); try lia; subst; ring. }
    assert (forall g : nat -> Qc, qsum (fun i => (w i + (if Nat.eqb i j then k else 0)) * g i) (length P) = qsum (fun i => w i * g i) (length P) + k * g j) as E.
    { intros g. transitivity (qsum (fun i => w i * g i + (if Nat.eqb i j then k else 0) * g i) (length P)); [apply qsum_ext; intros; ring|]. rewrite qsum_add, D. destruct (Nat.ltb_spec j (length P)); [reflexivity|lia]. }
    split; [intros i; specialize (W i); destruct (Nat.eqb i j); qc_lra|]. split; [|unfold v3add, v3scale; cbn [vx vy vz]; repeat split].
    + transitivity (qsum (fun i => (w i + (if Nat.eqb i j then k else 0)) * 1) (length P)); [apply qsum_ext; intros; ring|]. rewrite E. rewrite (qsum_ext _ w) by (intros; ring). rewrite S. ring.
    + rewrite E, <- Ex. unfold pt3. rewrite Ej. ring.
    + rewrite E, <- Ey. unfold pt3. rewrite Ej. ring.
    + rewrite E, <- Ez. unfold pt3. rewrite Ej. ring.
Qed.
Lemma cone3_hull P p s : 0 < s -> cone3 P p s -> in_hull3 P (v3scale p (/ s)).
Proof.
  intros S0 H. apply cone3_weights in H. destruct H as (w & W & S & Ex & Ey & Ez). pose proof (pos_nz _ S0) as NZ.
  assert (0 <= / s) as I0 by (apply Qclt_le_weak; replace (/ s) with (1 / s) by (field; exact NZ); apply Qcdiv_pos_lt; [exact S0|qc_lra]).
  exists (fun i => / s * w i). split; [intros i; apply Qcmul_nonneg; auto|]. split; [rewrite qsum_scale, S; field; exact NZ|]. unfold v3scale. cbn [vx vy vz]. repeat split.
  - rewrite (qsum_ext _ (fun i => / s * (w i * vx (pt3 P i)))) by (intros; ring). rewrite qsum_scale, <- Ex. ring.
  - rewrite (qsum_ext _ (fun i => / s * (w i * vy (pt3 P i)))) by (intros; ring). rewrite qsum_scale, <- Ey. ring.
  - rewrite (qsum_ext _ (fun i => / s * (w i * vz (pt3 P i)))) by (intros; ring). rewrite qsum_scale, <- Ez. ring.
Qed.
(** a convex combination of differences that vanishes *)
Lemma origin_meets A B (l : list (Qc * vec3)) s : 0 < s -> (forall k v, In (k, v) l -> 0 <= k /\ vertex_difference A B v) ->
  fold_right (fun e acc => fst e + acc) 0 l = s -> fold_right (fun e acc => v3add acc (v3scale (snd e) (fst e))) (V3 0 0 0) l = V3 0 0 0 -> hulls_meet3 A B.
Proof.
  intros S0 H Sum Org.
  assert (exists p q, cone3 A p s /\ cone3 B q s /\ v3sub p q = V3 0 0 0) as (p & q & CA & CB & E).
  { rewrite <- Org. clear Org S0. revert s Sum. induction l as [|(k & v) l IH]; cbn [fold_right fst snd]; intros s Sum.
    - exists (V3 0 0 0), (V3 0 0 0). rewrite <- Sum. split; [apply cone30|]. split; [apply cone30|]. v3ring.
    - destruct (IH (fun k v Hk => H k v (or_intror Hk)) _ eq_refl) as (p & q & CA & CB & E). destruct (H k v (or_introl eq_refl)) as (K & a & b & Ia & Ib & ->).
      rewrite <- Sum. rewrite Qcplus_comm. exists (v3add p (v3scale a k)), (v3add q (v3scale b k)). split; [apply cone3_add; assumption|]. split; [apply cone3_add; assumption|].
      rewrite <- E. v3ring. }
  exists (v3scale p (/ s)). split; [apply cone3_hull; assumption|]. replace p with q; [apply cone3_hull; assumption|].
  unfold v3sub in E. pose proof (f_equal vx E). pose proof (f_equal vy E). pose proof (f_equal vz E). cbn [vx vy vz] in *. clear E. apply v3_eq; qc_lra.
Qed.

(** ** support *)
Definition sv_inv (d : vec3) (pre : list vec3) (h : Qc) (idx : option nat) : Prop :=
  (forall v, In v pre -> v3dot v d <= h) /\ DBL_LOWEST <= h /\
  match idx with None => h = DBL_LOWEST | Some j => exists v, nth_error pre j = Some v /\ v3dot v d = h end.
Lemma sv_fold d l : forall pre h idx, sv_inv d pre h idx ->
  let '(i, h', idx') := fold_left (fun (st : nat * Qc * option nat) v =>
         let '(i, highest, index) := st in
         let dotValue := v3dot v d in
         if highest <? dotValue then (S i, dotValue, Some i) else (S i, highest, index)) l (length pre, h, idx) in sv_inv d (pre ++ l) h' idx'.
Proof.
  induction l as [|v l IH]; intros pre h idx (I1 & I2 & I3); cbn [fold_left].
  - rewrite app_nil_r. repeat split; assumption.
  - replace (pre ++ v :: l) with ((pre ++ [v]) ++ l) by (rewrite <- app_assoc; reflexivity).
    assert (S (length pre) = length (pre ++ [v])) as E by (rewrite app_length; cbn; lia).
    destruct (Qcltb_spec h (v3dot v d)) as [L|L]; rewrite E; apply IH.
    + split; [|split].
      * intros u Hu. apply in_app_or in Hu. destruct Hu as [Hu|[<-|[]]]; [specialize (I1 u Hu); clear - I1 L; qc_lra|apply Qcle_refl].
      * clear - I2 L. qc_lra.
      * exists v. split; [|reflexivity]. rewrite nth_error_app2 by lia. rewrite Nat.sub_diag. reflexivity.
    + apply Qcnot_lt_le in L. split; [|split; [exact I2|]].
      * intros u Hu. apply in_app_or in Hu. destruct Hu as [Hu|[<-|[]]]; [apply I1, Hu|exact L].
      * destruct idx as [j|]; [|exact I3]. destruct I3 as (u & N & Du). exists u. split; [|exact Du]. rewrite nth_error_app1; [exact N|]. apply nth_error_Some. congruence.
Qed.
Lemma support_vector_spec P d : match support_vector P d with
  | Some j => exists v, nth_error P j = Some v /\ In v P /\ forall u, In u P -> v3dot u d <= v3dot v d
  | None => forall u, In u P -> v3dot u d <= DBL_LOWEST end.
Proof.
  unfold support_vector. pose proof (sv_fold d P [] DBL_LOWEST None) as H. cbn [length app] in H.
  destruct (fold_left _ P _) as ((i & h) & idx). cbn [snd]. destruct H as (I1 & I2 & I3).
  - split; [intros ? []|]. split; [apply Qcle_refl|reflexivity].
  - destruct idx as [j|]; [|subst h; exact I1]. destruct I3 as (v & N & <-). exists v. split; [exact N|]. split; [exact (nth_error_In _ _ N)|exact I1].
Qed.
Lemma support_spec A B d p : support A B d = Ok p -> vertex_difference A B p /\ forall q, vertex_difference A B q -> v3dot q d <= v3dot p d.
Proof.
  unfold support. pose proof (support_vector_spec A d) as SA. pose proof (support_vector_spec B (v3neg d)) as SB.
  destruct (support_vector A d) as [i|]; [|discriminate]. destruct (support_vector B (v3neg d)) as [j|]; [|discriminate].
  destruct SA as (a & Na & Ia & MA), SB as (b & Nb & Ib & MB). unfold get. rewrite Na, Nb. cbn [of_option bind]. intros H.
  assert (v3sub a b = p) as <- by congruence. split; [exists a, b; auto|]. intros q (a' & b' & Ia' & Ib' & ->).
  specialize (MA a' Ia'). specialize (MB b' Ib'). rewrite !v3dot_neg in MB.
  assert (forall x y, v3dot (v3sub x y) d = v3dot x d - v3dot y d) as E by (intros; v3ring). rewrite !E. clear - MA MB. qc_lra.
Qed.

(** ** the two answers *)
Lemma loop_false A B cp0 tol n : forall s d r, gjk_loop A B cp0 tol n s d = Ok r -> collides r = false -> ~ hulls_meet3 A B.
Proof.
  induction n as [|n IH]; intros s d r; cbn [gjk_loop].
  - intros H F. assert (r = Gjk true s (Ok (V3 0 0 0))) as -> by congruence. discriminate F.
  - destruct (support A B d) as [p| |] eqn:Es; cbn [bind]; try discriminate. apply support_spec in Es. destruct Es as (_ & M).
    destruct (Qcltb_spec (v3dot p d) 0) as [L|L].
    + intros _ _. apply (apart3 A B d). intros a b Ia Ib. eapply Qcle_lt_trans; [apply M; exists a, b; auto|exact L].
    + destruct (handle_simplex _ _ _) as [((hit & s') & d')| |]; cbn [bind]; try discriminate. destruct hit; [|apply IH].
      intros H F. assert (r = Gjk true s' (Ok cp0)) as -> by congruence. discriminate F.
Qed.
(** no collision reported: the hulls are apart, whatever the simplex held before *)
Lemma gjk_false : forall A B s0 cp0 tol n r, gjk A B s0 cp0 tol n = Ok r -> collides r = false -> ~ hulls_meet3 A B.
Proof.
  intros A B s0 cp0 tol n r. unfold gjk. destruct (get A 0) as [a| |]; cbn [bind]; try discriminate. destruct (get B 0) as [b| |]; cbn [bind]; try discriminate.
  cbv zeta. destruct (support _ _ _) as [p| |]; cbn [bind]; try discriminate. apply loop_false.
Qed.

Lemma handle2 b a d tol : handle_simplex [b; a] d tol =
  if tol <? v3dot (v3sub b a) (v3neg a) then Ok (false, [b; a], v3cross (v3cross (v3sub b a) (v3neg a)) (v3sub b a)) else Ok (false, [a], v3neg a).
Proof. reflexivity. Qed.
Lemma handle3 c b a d tol : handle_simplex [c; b; a] d tol =
  if tol <? v3dot (v3cross (v3cross (v3sub b a) (v3sub c a)) (v3sub c a)) (v3neg a) then Ok (false, [b; a], v3cross (v3cross (v3sub b a) (v3sub c a)) (v3sub c a))
  else if tol <? v3dot (v3cross (v3sub b a) (v3cross (v3sub b a) (v3sub c a))) (v3neg a) then Ok (false, [c; a], v3cross (v3sub b a) (v3cross (v3sub b a) (v3sub c a)))
  else if tol <? v3dot (v3cross (v3sub b a) (v3sub c a)) (v3neg a) then Ok (false, [c; b; a], v3cross (v3sub b a) (v3sub c a))
  else Ok (false, [b; c; a], v3neg (v3cross (v3sub b a) (v3sub c a))).
Proof. reflexivity. Qed.
Lemma handle4 e c b a d tol : handle_simplex [e; c; b; a] d tol =
  if 0 <? v3dot (v3cross (v3sub b a) (v3sub c a)) (v3neg a) then Ok (false, [c; b; a], v3cross (v3sub b a) (v3sub c a))
  else if 0 <? v3dot (v3cross (v3sub c a) (v3sub e a)) (v3neg a) then Ok (false, [e; c; a], v3cross (v3sub c a) (v3sub e a))
  else if 0 <? v3dot (v3cross (v3sub e a) (v3sub b a)) (v3neg a) then Ok (false, [e; b; a], v3cross (v3sub e a) (v3sub b a))
  else Ok (true, [e; c; b; a], d).
Proof. reflexivity. Qed.

(** the invariant of the loop: vertex differences, and for three points the
    direction is a normal, of either orientation *)
Definition near_face (A B : list vec3) (tol : Qc) : Prop :=
  exists p q r, vertex_difference A B p /\ vertex_difference A B q /\ vertex_difference A B r /\
    0 < v3dot (v3cross (v3sub q p) (v3sub r p)) p /\ v3dot (v3cross (v3sub q p) (v3sub r p)) p <= tol.
Definition state_ok (A B : list vec3) (tol : Qc) (s : list vec3) (d : vec3) : Prop :=
  Forall (vertex_difference A B) s /\
  match s with
  | [_] | [_; _] => True
  | [c; b; a] => (d = v3cross (v3sub b a) (v3sub c a) /\ - tol <= v3dot d (v3neg a)) \/ (d = v3cross (v3sub c a) (v3sub b a) /\ 0 < v3dot d (v3neg a))
  | _ => False
  end.
Lemma handle_ok A B tol s d p : 0 <= tol -> state_ok A B tol s d -> vertex_difference A B p ->
  exists hit s' d', handle_simplex (s ++ [p]) d tol = Ok (hit, s', d') /\ Forall (vertex_difference A B) s' /\
    (hit = false -> state_ok A B tol s' d') /\ (hit = true -> s' = s ++ [p] /\ exists c b a, s = [c; b; a]).
Proof.
  intros T (F & Sh) P. destruct s as [|s0 [|s1 [|s2 [|s3 s]]]]; try contradiction; cbn [app]; rewrite ?handle2, ?handle3, ?handle4.
  - inversion F as [|? ? F0 _]; subst. destruct (tol <? _); do 3 eexists; (split; [reflexivity|]); (split; [auto|]); (split; [|discriminate]); intros _; split; auto.
  - inversion F as [|? ? F0 F']; subst. inversion F' as [|? ? F1 _]; subst. clear F'.
    destruct (Qcltb_spec tol (v3dot (v3cross (v3cross (v3sub s1 p) (v3sub s0 p)) (v3sub s0 p)) (v3neg p))) as [L|L];
      [do 3 eexists; (split; [reflexivity|]); (split; [auto|]); (split; [|discriminate]); intros _; split; auto|].
    destruct (Qcltb_spec tol (v3dot (v3cross (v3sub s1 p) (v3cross (v3sub s1 p) (v3sub s0 p))) (v3neg p))) as [L2|L2];
      [do 3 eexists; (split; [reflexivity|]); (split; [auto|]); (split; [|discriminate]); intros _; split; auto|].
    destruct (Qcltb_spec tol (v3dot (v3cross (v3sub s1 p) (v3sub s0 p)) (v3neg p))) as [L3|L3]; do 3 eexists; (split; [reflexivity|]); (split; [auto|]); (split; [|discriminate]); intros _; (split; [auto|]); left.
    + split; [reflexivity|]. clear - T L3. qc_lra.
    + split; [v3ring|]. replace (v3dot (v3neg (v3cross (v3sub s1 p) (v3sub s0 p))) (v3neg p)) with (- v3dot (v3cross (v3sub s1 p) (v3sub s0 p)) (v3neg p)) by v3ring. clear - L3. qc_lra.
  - inversion F as [|? ? F0 F']; subst. inversion F' as [|? ? F1 F'']; subst. inversion F'' as [|? ? F2 _]; subst. clear F' F''.
    destruct (Qcltb_spec 0 (v3dot (v3cross (v3sub s2 p) (v3sub s1 p)) (v3neg p))) as [L|L];
      [do 3 eexists; (split; [reflexivity|]); (split; [auto|]); (split; [|discriminate]); intros _; (split; [auto|]); left; split; [reflexivity|clear - T L; qc_lra]|].
    destruct (Qcltb_spec 0 (v3dot (v3cross (v3sub s1 p) (v3sub s0 p)) (v3neg p))) as [L2|L2];
      [do 3 eexists; (split; [reflexivity|]); (split; [auto|]); (split; [|discriminate]); intros _; (split; [auto|]); left; split; [reflexivity|clear - T L2; qc_lra]|].
    destruct (Qcltb_spec 0 (v3dot (v3cross (v3sub s0 p) (v3sub s2 p)) (v3neg p))) as [L3|L3].
    + do 3 eexists; (split; [reflexivity|]); (split; [auto|]); (split; [|discriminate]). intros _. split; [auto|].
      right. split; [reflexivity|exact L3].
    + do 3 eexists. split; [reflexivity|]. split; [auto|]. split; [discriminate|]. intros _. split; [reflexivity|]. eauto.
Qed.

(** the tetrahedron test *)
Lemma tetra_true A B tol c b a p d d' : 0 <= tol -> state_ok A B tol [c; b; a] d -> vertex_difference A B p -> 0 <= v3dot p d ->
  handle_simplex ([c; b; a] ++ [p]) d tol = Ok (true, [c; b; a; p], d') -> volume6 c b a p <> 0 -> hulls_meet3 A B \/ near_face A B tol.
Proof.
  intros T (F & Sh) P PD H NV. inversion F as [|? ? Fc F']; subst. inversion F' as [|? ? Fb F'']; subst. inversion F'' as [|? ? Fa _]; subst. clear F F' F''.
  cbn [app] in H. rewrite handle4 in H.
  destruct (Qcltb_spec 0 (v3dot (v3cross (v3sub a p) (v3sub b p)) (v3neg p))) as [L|L]; [discriminate|].
  destruct (Qcltb_spec 0 (v3dot (v3cross (v3sub b p) (v3sub c p)) (v3neg p))) as [L2|L2]; [discriminate|].
  destruct (Qcltb_spec 0 (v3dot (v3cross (v3sub c p) (v3sub a p)) (v3neg p))) as [L3|L3]; [discriminate|]. clear H.
  apply Qcnot_lt_le in L, L2, L3.
  set (wc := - v3dot (v3cross (v3sub a p) (v3sub b p)) (v3neg p)) in *. set (wa := - v3dot (v3cross (v3sub b p) (v3sub c p)) (v3neg p)) in *. set (wb := - v3dot (v3cross (v3sub c p) (v3sub a p)) (v3neg p)) in *.
  set (n := v3cross (v3sub b a) (v3sub c a)) in *. set (wp := v3dot n (v3neg a)) in *.
  assert (wc + wa + wb + wp = v3dot n p + wp) as SUM by (unfold wc, wa, wb, wp, n; v3ring).
  assert (v3dot n p + wp = - volume6 c b a p) as VOL by (unfold wp, n, volume6; v3ring).
  assert (v3add (v3add (v3add (v3add (V3 0 0 0) (v3scale p wp)) (v3scale b wb)) (v3scale a wa)) (v3scale c wc) = V3 0 0 0) as ORG by (unfold wc, wa, wb, wp, n; v3ring).
  assert (v3dot p d = v3dot d p) as PC by v3ring. rewrite PC in PD. clear PC.
  destruct Sh as [(-> & N)|(-> & N)].
  - fold n in PD. fold n wp in N. destruct (Qcltb_spec wp 0) as [W|W].
    + right. exists a, b, c. repeat apply conj; try assumption; fold n; assert (v3dot n a = - wp) as -> by (unfold wp; v3ring); clear - W N; qc_lra.
    + left. apply Qcnot_lt_le in W. apply (origin_meets A B [(wc, c); (wa, a); (wb, b); (wp, p)] (v3dot n p + wp)).
      * destruct (Qceqb_spec (v3dot n p + wp) 0) as [Z|Z]; [exfalso; apply NV; clear - Z VOL; qc_lra|]. destruct (Qc_neq_or _ _ Z) as [Y|Y]; [exfalso; clear - Y PD W; qc_lra|exact Y].
      * intros k v [E|[E|[E|[E|[]]]]]; apply pair_equal_spec in E; destruct E as (<- & <-); (split; [|assumption]); [clear - L; unfold wc; qc_lra|clear - L2; unfold wa; qc_lra|clear - L3; unfold wb; qc_lra|exact W].
      * cbn [fold_right fst]. rewrite <- SUM. ring.
      * cbn [fold_right fst snd]. exact ORG.
  - (* the reversed orientation: the newest point is the origin *)
    left. assert (v3dot (v3cross (v3sub c a) (v3sub b a)) p = - v3dot n p) as E1 by (unfold n; v3ring). assert (v3dot (v3cross (v3sub c a) (v3sub b a)) (v3neg a) = - wp) as E2 by (unfold wp, n; v3ring).
    rewrite E1 in PD. rewrite E2 in N.
    assert (wc = 0) as Zc by (unfold wc, wa, wb in *; clear - L L2 L3 SUM PD; qc_lra). assert (wa = 0) as Za by (unfold wc, wa, wb in *; clear - L L2 L3 SUM PD; qc_lra).
    assert (wb = 0) as Zb by (unfold wc, wa, wb in *; clear - L L2 L3 SUM PD; qc_lra). rewrite Zc, Za, Zb in ORG.
    assert (p = V3 0 0 0) as P0.
    { assert (wp <> 0) as NZ by (intros E; clear - N E; qc_lra). clear - ORG NZ. clearbody wp. unfold v3add, v3scale in ORG.
      pose proof (f_equal vx ORG) as X. pose proof (f_equal vy ORG) as Y. pose proof (f_equal vz ORG) as Z. cbn [vx vy vz] in *. clear ORG.
      apply v3_eq; cbn [vx vy vz]; apply (Qcmult_integral_l wp); try exact NZ; clear NZ; qc_lra. }
    apply (origin_meets A B [(1, p)] 1); [qc_lra| | |].
    + intros k v [E|[]]; apply pair_equal_spec in E; destruct E as (<- & <-). split; [qc_lra|exact P].
    + cbn [fold_right fst]. ring.
    + cbn [fold_right fst snd]. rewrite P0. v3ring.
Qed.

Lemma loop_true A B cp0 tol n : 0 <= tol -> forall s d r, state_ok A B tol s d -> gjk_loop A B cp0 tol n s d = Ok r ->
  forall x0 x1 x2 x3, final_simplex r = [x0; x1; x2; x3] -> volume6 x0 x1 x2 x3 <> 0 -> hulls_meet3 A B \/ near_face A B tol.
Proof.
  intros T. induction n as [|n IH]; intros s d r OK; cbn [gjk_loop].
  - intros H x0 x1 x2 x3 E. assert (r = Gjk true s (Ok (V3 0 0 0))) as -> by congruence. cbn [final_simplex] in E. subst s. destruct OK as (_ & []).
  - destruct (support A B d) as [p| |] eqn:Es; cbn [bind]; try discriminate. apply support_spec in Es. destruct Es as (VD & _).
    destruct (Qcltb_spec (v3dot p d) 0) as [L|L].
    + intros H x0 x1 x2 x3 E. assert (r = Gjk false s (closest_on_simplex s)) as -> by congruence. cbn [final_simplex] in E. subst s. destruct OK as (_ & []).
    + apply Qcnot_lt_le in L. destruct (handle_ok A B tol s d p T OK VD) as (hit & s' & d' & Eh & F & Hf & Ht). rewrite Eh. cbn [bind]. destruct hit.
      * intros H x0 x1 x2 x3 E V. assert (r = Gjk true s' (Ok cp0)) as -> by congruence. cbn [final_simplex] in E. destruct (Ht eq_refl) as (-> & c & b & a & ->).
        cbn [app] in E. assert (x0 = c /\ x1 = b /\ x2 = a /\ x3 = p) as (-> & -> & -> & ->) by (clear - E; repeat split; congruence).
        eapply (tetra_true A B tol c b a p d d'); eauto.
      * apply IH. apply Hf. reflexivity.
Qed.
Lemma first_state A B tol p : vertex_difference A B p -> state_ok A B tol ([] ++ [p]) (v3neg p).
Proof. intros H. split; [repeat constructor; exact H|exact I]. Qed.
(** a collision reported by the tetrahedron test *)
Lemma gjk_true_converged : forall A B cp0 tol n r x0 x1 x2 x3, 0 <= tol -> gjk A B [] cp0 tol n = Ok r ->
  final_simplex r = [x0; x1; x2; x3] -> volume6 x0 x1 x2 x3 <> 0 -> hulls_meet3 A B \/ near_face A B tol.
Proof.
  intros A B cp0 tol n r x0 x1 x2 x3 T. unfold gjk. destruct (get A 0) as [a| |]; cbn [bind]; try discriminate. destruct (get B 0) as [b| |]; cbn [bind]; try discriminate.
  cbv zeta. destruct (support _ _ _) as [p| |] eqn:Es; cbn [bind]; try discriminate. apply support_spec in Es. destruct Es as (VD & _).
  intros H E V. eapply (loop_true A B cp0 tol n T); [apply first_state; exact VD|exact H|exact E|exact V].
Qed.

(** ** it runs *)
Definition box3 (K : Qc) (v : vec3) : Prop := - K <= vx v /\ vx v <= K /\ - K <= vy v /\ vy v <= K /\ - K <= vz v /\ vz v <= K.
Lemma box3_mono K K' v : K <= K' -> box3 K v -> box3 K' v.
Proof. unfold box3. intros L (A & B & C & D & E & F). repeat apply conj; [clear - A L|clear - B L|clear - C L|clear - D L|clear - E L|clear - F L]; qc_lra. Qed.
Lemma box3_neg K v : box3 K v -> box3 K (v3neg v).
Proof. unfold box3, v3neg. cbn [vx vy vz]. intros (A & B & C & D & E & F). repeat apply conj; [clear - B|clear - A|clear - D|clear - C|clear - F|clear - E]; qc_lra. Qed.
Lemma box3_sub K L a b : box3 K a -> box3 L b -> box3 (K + L) (v3sub a b).
Proof. unfold box3, v3sub. cbn [vx vy vz]. intros (A & B & C & D & E & F) (A' & B' & C' & D' & E' & F'). repeat apply conj; [clear - A B'|clear - B A'|clear - C D'|clear - D C'|clear - E F'|clear - F E']; qc_lra. Qed.
Lemma mul_box (x y K L : Qc) : - K <= x -> x <= K -> - L <= y -> y <= L -> - (K * L) <= x * y /\ x * y <= K * L.
Proof.
  intros A B C D. assert (0 <= (K - x) * (L + y)) as P1 by (apply Qcmul_nonneg; [clear - B|clear - C]; qc_lra). assert (0 <= (K + x) * (L - y)) as P2 by (apply Qcmul_nonneg; [clear - A|clear - D]; qc_lra).
  assert (0 <= (K - x) * (L - y)) as P3 by (apply Qcmul_nonneg; [clear - B|clear - D]; qc_lra). assert (0 <= (K + x) * (L + y)) as P4 by (apply Qcmul_nonneg; [clear - A|clear - C]; qc_lra).
  clear - P1 P2 P3 P4. split; qc_lra.
Qed.
Lemma box3_cross K L a b : box3 K a -> box3 L b -> box3 ((1 + 1) * (K * L)) (v3cross a b).
Proof.
  unfold box3, v3cross. cbn [vx vy vz]. intros (A & B & C & D & E & F) (A' & B' & C' & D' & E' & F').
  pose proof (mul_box _ _ _ _ C D E' F') as (P1 & Q1). pose proof (mul_box _ _ _ _ E F C' D') as (P2 & Q2). pose proof (mul_box _ _ _ _ E F A' B') as (P3 & Q3).
  pose proof (mul_box _ _ _ _ A B E' F') as (P4 & Q4). pose proof (mul_box _ _ _ _ A B C' D') as (P5 & Q5). pose proof (mul_box _ _ _ _ C D A' B') as (P6 & Q6).
  set (k := K * L) in *. clearbody k. repeat apply conj; [clear - P1 Q2|clear - Q1 P2|clear - P3 Q4|clear - Q3 P4|clear - P5 Q6|clear - Q5 P6]; qc_lra.
Qed.
Lemma box3_dot K L a b : box3 K a -> box3 L b -> - ((1 + 1 + 1) * (K * L)) <= v3dot a b.
Proof.
  unfold box3, v3dot. intros (A & B & C & D & E & F) (A' & B' & C' & D' & E' & F').
  pose proof (mul_box _ _ _ _ A B A' B') as (P1 & _). pose proof (mul_box _ _ _ _ C D C' D') as (P2 & _). pose proof (mul_box _ _ _ _ E F E' F') as (P3 & _).
  set (k := K * L) in *. clearbody k. clear - P1 P2 P3. qc_lra.
Qed.

Ltac qc_eqle := rewrite Qc_le_this; repeat progress rewrite ?this_plus, ?this_minus, ?this_mult, ?this_opp, ?this_0, ?this_1, ?this_qc; apply Qle_lteq; right; ring.

Definition small_ok (A B : list vec3) (s : list vec3) : Prop := Forall (vertex_difference A B) s /\ (1 <= length s <= 3)%nat.
Lemma handle_small A B tol s d p : small_ok A B s -> vertex_difference A B p ->
  exists hit s' d', handle_simplex (s ++ [p]) d tol = Ok (hit, s', d') /\ Forall (vertex_difference A B) s' /\ (hit = false -> small_ok A B s') /\ (hit = true -> s' = s ++ [p]).
Proof.
  intros (F & L) P. destruct s as [|s0 [|s1 [|s2 [|s3 s]]]]; cbn [length] in L; try lia; cbn [app]; rewrite ?handle2, ?handle3, ?handle4.
  - inversion F as [|? ? F0 _]; subst. destruct (tol <? _); do 3 eexists; (split; [reflexivity|]); (split; [auto|]); (split; [|discriminate]); intros _; (split; [auto|cbn; lia]).
  - inversion F as [|? ? F0 F']; subst. inversion F' as [|? ? F1 _]; subst. clear F'.
    repeat (destruct (tol <? _)); do 3 eexists; (split; [reflexivity|]); (split; [auto|]); (split; [|discriminate]); intros _; (split; [auto|cbn; lia]).
  - inversion F as [|? ? F0 F']; subst. inversion F' as [|? ? F1 F'']; subst. inversion F'' as [|? ? F2 _]; subst. clear F' F''.
    do 3 (destruct (0 <? _); [do 3 eexists; (split; [reflexivity|]); (split; [auto|]); (split; [|discriminate]); intros _; (split; [auto|cbn; lia])|]).
    do 3 eexists. split; [reflexivity|]. split; [auto|]. split; [discriminate|reflexivity].
Qed.

Section runs.
Variables (A B : list vec3) (X K : Qc) (tol : Qc) (cp0 : vec3).
Hypothesis NA : A <> [].
Hypothesis NB : B <> [].
Hypothesis MA : moderate3 X A.
Hypothesis MB : moderate3 X B.
Hypothesis X1 : 1 <= X.
Hypothesis KX : K = qc 256 1 * (X * X * X).
Hypothesis SM : DBL_LOWEST < - ((1 + 1 + 1) * (X * K)).

Lemma K2X : X + X <= K /\ qc 128 1 * (X * X * X) <= K /\ qc 32 1 * (X * X) <= K.
Proof.
  assert (1 <= X * X) as H by (pose proof (Qcmul_nonneg (X - 1) (X + 1) ltac:(clear - X1; qc_lra) ltac:(clear - X1; qc_lra)) as P; clear - P X1; qc_lra).
  assert (0 <= (X * X - 1) * X) as P by (apply Qcmul_nonneg; [clear - H|clear - X1]; qc_lra). assert (0 <= (X * X) * (X - 1)) as Q by (apply Qcmul_nonneg; [clear - H|clear - X1]; qc_lra).
  rewrite KX. set (Y := X * X) in *. set (Z := Y * X) in *. assert (X <= Z) by (clear - P; unfold Z in *; qc_lra). assert (Y <= Z) by (clear - Q; unfold Z in *; qc_lra). clearbody Z Y. repeat apply conj; qc_lra.
Qed.
Lemma support_runs d : box3 K d -> exists p, support A B d = Ok p.
Proof.
  intros D. unfold support. assert (forall P e, P <> [] -> moderate3 X P -> box3 K e -> exists i v, support_vector P e = Some i /\ get P i = Ok v) as G.
  { clear - SM. intros P e NP MP E. pose proof (support_vector_spec P e) as S. destruct (support_vector P e) as [i|].
    - destruct S as (v & N & _). exists i, v. split; [reflexivity|]. unfold get. rewrite N. reflexivity.
    - exfalso. destruct P as [|v P]; [congruence|]. specialize (S v (or_introl eq_refl)). pose proof (box3_dot X K v e (MP v (or_introl eq_refl)) E) as Y. clear - S Y SM.
      apply (Qcle_not_lt _ _ (Qcle_trans _ _ _ Y S)). exact SM. }
  destruct (G A d NA MA D) as (i & v & -> & Gi). destruct (G B (v3neg d) NB MB (box3_neg _ _ D)) as (j & u & -> & Gj). rewrite Gi, Gj. cbn [bind]. eauto.
Qed.
Lemma vd_box p : vertex_difference A B p -> box3 (X + X) p.
Proof. intros (a & b & Ia & Ib & ->). apply box3_sub; [apply MA, Ia|apply MB, Ib]. Qed.
Lemma handle_box s d p hit s' d' : box3 K d -> Forall (vertex_difference A B) s -> vertex_difference A B p -> handle_simplex (s ++ [p]) d tol = Ok (hit, s', d') -> box3 K d'.
Proof.
  intros D F P H. destruct K2X as (K1 & K2 & K3).
  assert (forall u v, vertex_difference A B u -> vertex_difference A B v -> box3 (X + X + (X + X)) (v3sub u v)) as Sb by (intros; apply box3_sub; apply vd_box; assumption).
  assert (forall u v w, vertex_difference A B u -> vertex_difference A B v -> vertex_difference A B w -> box3 (qc 32 1 * (X * X)) (v3cross (v3sub u w) (v3sub v w))) as Cr.
  { intros u v w Hu Hv Hw. eapply box3_mono; [|apply box3_cross; apply Sb; assumption]. clear. qc_eqle. }
  assert (forall u v w x y, vertex_difference A B u -> vertex_difference A B v -> vertex_difference A B w -> vertex_difference A B x -> vertex_difference A B y -> box3 K (v3cross (v3cross (v3sub u w) (v3sub v w)) (v3sub x y)) /\ box3 K (v3cross (v3sub x y) (v3cross (v3sub u w) (v3sub v w)))) as Cr2.
  { intros u v w x y Hu Hv Hw Hx Hy. pose proof (Cr u v w Hu Hv Hw) as C1. pose proof (Sb x y Hx Hy) as C2. split; [eapply box3_mono; [|exact (box3_cross _ _ _ _ C1 C2)]|eapply box3_mono; [|exact (box3_cross _ _ _ _ C2 C1)]]; rewrite KX; clear; qc_eqle. }
  destruct s as [|s0 [|s1 [|s2 [|s3 s]]]]; cbn [app] in H; rewrite ?handle2, ?handle3, ?handle4 in H; try discriminate.
  - inversion F as [|? ? F0 _]; subst. destruct (tol <? _).
    + assert (v3cross (v3cross (v3sub s0 p) (v3neg p)) (v3sub s0 p) = d') as <- by congruence.
      eapply box3_mono; [|apply box3_cross; [apply box3_cross; [apply Sb; assumption|apply box3_neg, vd_box; exact P]|apply Sb; assumption]].
      eapply Qcle_trans; [|exact K2]. clear. qc_eqle.
    + assert (v3neg p = d') as <- by congruence. apply box3_neg. eapply box3_mono; [exact K1|apply vd_box; exact P].
  - inversion F as [|? ? F0 F']; subst. inversion F' as [|? ? F1 _]; subst.
    destruct (tol <? _); [match type of H with Ok (_, _, ?x) = _ => assert (x = d') as <- by congruence end; first [exact (proj1 (Cr2 s1 s0 p s0 p F1 F0 P F0 P))|exact (proj2 (Cr2 s1 s0 p s1 p F1 F0 P F1 P))]|].
    destruct (tol <? _); [match type of H with Ok (_, _, ?x) = _ => assert (x = d') as <- by congruence end; first [exact (proj1 (Cr2 s1 s0 p s0 p F1 F0 P F0 P))|exact (proj2 (Cr2 s1 s0 p s1 p F1 F0 P F1 P))]|].
    destruct (tol <? _); match type of H with Ok (_, _, ?x) = _ => assert (x = d') as <- by congruence end; [|apply box3_neg]; exact (box3_mono _ _ _ K3 (Cr s1 s0 p F1 F0 P)).
  - inversion F as [|? ? F0 F']; subst. inversion F' as [|? ? F1 F'']; subst. inversion F'' as [|? ? F2 _]; subst.
    do 3 (destruct (0 <? _); [match type of H with Ok (_, _, ?x) = _ => assert (x = d') as <- by congruence end; eapply box3_mono; [exact K3|apply Cr; assumption]|]).
    assert (d = d') as <- by congruence. exact D.
  - destruct s; discriminate.
Qed.
Lemma loop_runs n : forall s d, small_ok A B s -> box3 K d ->
  exists r, gjk_loop A B cp0 tol n s d = Ok r /\ Forall (vertex_difference A B) (final_simplex r) /\ (1 <= length (final_simplex r) <= 4)%nat.
Proof.
  induction n as [|n IH]; intros s d OK D; cbn [gjk_loop]; pose proof OK as (OF & LEN).
  - eexists. split; [reflexivity|]. cbn [final_simplex]. split; [exact OF|lia].
  - destruct (support_runs d D) as (p & Ep). rewrite Ep. cbn [bind]. apply support_spec in Ep. destruct Ep as (VD & _).
    destruct (v3dot p d <? 0).
    + eexists. split; [reflexivity|]. cbn [final_simplex]. split; [exact OF|lia].
    + destruct (handle_small A B tol s d p OK VD) as (hit & s' & d' & Eh & F & Hf & Ht). rewrite Eh. cbn [bind]. destruct hit.
      * eexists. split; [reflexivity|]. cbn [final_simplex]. split; [exact F|]. rewrite (Ht eq_refl), app_length. cbn [length]. lia.
      * apply IH; [apply Hf; reflexivity|]. eapply handle_box; [exact D|exact OF|exact VD|exact Eh].
Qed.
Lemma gjk_runs0 n : exists r, gjk A B [] cp0 tol n = Ok r /\ Forall (vertex_difference A B) (final_simplex r) /\ (1 <= length (final_simplex r) <= 4)%nat.
Proof.
  assert (forall P : list vec3, P <> [] -> exists a, get P 0 = Ok a /\ In a P) as G by (intros [|a P] N; [congruence|exists a; split; [reflexivity|left; reflexivity]]).
  destruct K2X as (K1 & _ & _). unfold gjk. destruct (G A NA) as (a & -> & Ia). destruct (G B NB) as (b & -> & Ib). cbn [bind]. cbv zeta.
  set (d := if _ : bool then _ else _).
  assert (box3 K d) as D.
  { unfold d. destruct (v3sq (v3sub b a) =? 0).
    - unfold box3. cbn [vx vy vz]. clear - K1 X1. repeat apply conj; qc_lra.
    - eapply box3_mono; [exact K1|]. apply box3_sub; [apply MB, Ib|apply MA, Ia]. }
  destruct (support_runs d D) as (p & Ep). rewrite Ep. cbn [bind]. apply support_spec in Ep. destruct Ep as (VD & _).
  apply loop_runs; [split; [repeat constructor; exact VD|cbn; lia]|]. apply box3_neg. eapply box3_mono; [exact K1|apply vd_box; exact VD].
Qed.
End runs.

Definition gjk_bound : Qc := Qc_of_Z (2 ^ 200).
Lemma gjk_runs : forall A B cp0 tol n, A <> [] -> B <> [] -> moderate3 gjk_bound A -> moderate3 gjk_bound B ->
  exists r, gjk A B [] cp0 tol n = Ok r /\ Forall (vertex_difference A B) (final_simplex r) /\ (1 <= length (final_simplex r) <= 4)%nat.
Proof.
  intros A B cp0 tol n NA NB MA MB. eapply (gjk_runs0 A B gjk_bound _ tol cp0 NA NB MA MB); [|reflexivity|].
  - vm_compute. discriminate.
  - vm_compute. reflexivity.
Qed.

(** ** the order on points *)
Lemma v3lt_irrefl : forall a, v3lt a a = false.
Proof.
  intros a. unfold v3lt. destruct (Qcltb_spec (vx a) (vx a)) as [L|L]; [exfalso; clear - L; qc_lra|]. destruct (Qcltb_spec (vy a) (vy a)) as [L1|L1]; [exfalso; clear - L1; qc_lra|].
  destruct (Qcltb_spec (vz a) (vz a)) as [L2|L2]; [exfalso; clear - L2; qc_lra|]. rewrite !andb_false_r. reflexivity.
Qed.
Lemma v3lt_iff a b : v3lt a b = true <-> vx a < vx b \/ (vx a = vx b /\ vy a < vy b) \/ (vx a = vx b /\ vy a = vy b /\ vz a < vz b).
Proof.
  unfold v3lt. destruct (Qcltb_spec (vx a) (vx b)) as [L|L]; [intuition|]. destruct (Qceqb_spec (vx a) (vx b)) as [E|E]; cbn [andb].
  - destruct (Qcltb_spec (vy a) (vy b)) as [L1|L1]; [intuition|]. destruct (Qceqb_spec (vy a) (vy b)) as [E1|E1]; cbn [andb].
    + destruct (Qcltb_spec (vz a) (vz b)) as [L2|L2]; intuition (try discriminate; try contradiction).
    + intuition (try discriminate; try contradiction).
  - intuition (try discriminate; try contradiction).
Qed.
Lemma v3lt_trans : forall a b c, v3lt a b = true -> v3lt b c = true -> v3lt a c = true.
Proof.
  intros a b c. rewrite !v3lt_iff. intros [H|[(E & H)|(E & F & H)]] [K|[(G & K)|(G & G' & K)]]; rewrite ?E, ?F, ?G, ?G' in *; try (left; clear - H K; qc_lra); try (left; exact H); try (left; exact K);
    try (right; left; split; [reflexivity|clear - H K; qc_lra]); try (right; left; split; [reflexivity|assumption]). right. right. repeat split. clear - H K. qc_lra.
Qed.
Lemma v3lt_total : forall a b, v3lt a b = true \/ v3lt b a = true \/ a = b.
Proof.
  intros a b. rewrite !v3lt_iff. destruct (Qceqb_spec (vx a) (vx b)) as [E|E]; [|destruct (Qc_neq_or _ _ E); auto].
  destruct (Qceqb_spec (vy a) (vy b)) as [E1|E1]; [|destruct (Qc_neq_or _ _ E1); auto 6].
  destruct (Qceqb_spec (vz a) (vz b)) as [E2|E2]; [|destruct (Qc_neq_or _ _ E2); auto 8]. right. right. apply v3_eq; assumption.
Qed.

(** ** the closest point of a simplex *)
Lemma nearest_ext (S1 S2 : vec3 -> Prop) q p : (forall x, S1 x <-> S2 x) -> nearest S1 q p -> nearest S2 q p.
Proof. intros H (A & B). split; [apply H, A|]. intros x X. apply B, H, X. Qed.
Lemma hull3_one a p : in_hull3 [a] p <-> p = a.
Proof.
  split.
  - intros (w & W & S & Ex & Ey & Ez). cbn [length qsum pt3 nth] in *. unfold pt3 in *. cbn [nth] in *. assert (w O = 1) as E by (clear - S; qc_lra). rewrite E in *.
    apply v3_eq; [rewrite Ex|rewrite Ey|rewrite Ez]; ring.
  - intros ->. exists (fun _ => 1). split; [intros; qc_lra|]. unfold pt3. cbn [length qsum nth]. repeat split; ring.
Qed.
Lemma hull3_two a b p : in_hull3 [b; a] p <-> on_segment a b p.
Proof.
  split.
  - intros (w & W & S & Ex & Ey & Ez). unfold pt3 in *. cbn [length qsum nth] in *. exists (w O). pose proof (W O) as W0. pose proof (W 1%nat) as W1. assert (w 1%nat = 1 - w O) as E by (clear - S; qc_lra).
    rewrite E in *. split; [exact W0|]. split; [clear - W1; qc_lra|]. unfold v3add, v3scale. apply v3_eq; cbn [vx vy vz]; [rewrite Ex|rewrite Ey|rewrite Ez]; ring.
  - intros (t & T0 & T1 & ->). exists (fun i => match i with O => t | _ => 1 - t end). split; [intros [|i]; [exact T0|clear - T1; qc_lra]|]. unfold pt3, v3add, v3scale. cbn [length qsum nth vx vy vz]. repeat split; ring.
Qed.
Lemma hull3_three a b c p : in_hull3 [c; b; a] p <-> in_triangle a b c p.
Proof.
  split.
  - intros (w & W & S & Ex & Ey & Ez). unfold pt3 in *. cbn [length qsum nth] in *. exists (w 2%nat), (w 1%nat), (w O). repeat (split; [first [apply W|clear - S; qc_lra]|]).
    unfold v3add, v3scale. apply v3_eq; cbn [vx vy vz]; [rewrite Ex|rewrite Ey|rewrite Ez]; ring.
  - intros (u & v & w & U & V & W & S & ->). exists (fun i => match i with O => w | 1%nat => v | _ => u end). split; [intros [|[|i]]; assumption|]. unfold pt3, v3add, v3scale. cbn [length qsum nth vx vy vz]. split; [clear - S; qc_lra|]. repeat split; ring.
Qed.
Lemma simplex_nearest : forall s, (1 <= length s <= 3)%nat -> NoDup s -> exists p, closest_on_simplex s = Ok p /\ nearest (in_hull3 s) origin p.
Proof.
  intros s L N. destruct s as [|c [|b [|a [|? s]]]]; cbn [length] in L; try lia.
  - exists c. split; [reflexivity|]. apply (nearest_ext (fun x => x = c)); [intros x; symmetry; apply hull3_one|]. split; [reflexivity|]. intros x ->. apply Qcle_refl.
  - assert (b <> c) as D. { inversion N as [|? ? H _]; subst. intros ->. apply H. left. reflexivity. }
    destruct (segm_nearest b c D) as (p & E & H). exists p. split; [exact E|]. eapply nearest_ext; [|exact H]. intros x. symmetry. apply hull3_two.
  - assert (a <> b) as D. { inversion N as [|? ? _ N']; subst. inversion N' as [|? ? H _]; subst. intros ->. apply H. left. reflexivity. }
    destruct (triangle_nearest a b c D) as (p & E & H). exists p. split; [exact E|]. eapply nearest_ext; [|exact H]. intros x. symmetry. apply hull3_three.
Qed.
(** the closest point written by a negative answer is that of the final simplex *)
Lemma loop_closest A B cp0 tol n : forall s d r, gjk_loop A B cp0 tol n s d = Ok r -> collides r = false -> closest r = closest_on_simplex (final_simplex r).
Proof.
  induction n as [|n IH]; intros s d r; cbn [gjk_loop].
  - intros H F. assert (r = Gjk true s (Ok (V3 0 0 0))) as -> by congruence. discriminate F.
  - destruct (support A B d) as [p| |]; cbn [bind]; try discriminate. destruct (v3dot p d <? 0).
    + intros H _. assert (r = Gjk false s (closest_on_simplex s)) as -> by congruence. reflexivity.
    + destruct (handle_simplex _ _ _) as [((hit & s') & d')| |]; cbn [bind]; try discriminate. destruct hit; [|apply IH].
      intros H F. assert (r = Gjk true s' (Ok cp0)) as -> by congruence. discriminate F.
Qed.
Lemma loop_false_small A B cp0 tol n : 0 <= tol -> forall s d r, state_ok A B tol s d -> gjk_loop A B cp0 tol n s d = Ok r -> collides r = false -> (1 <= length (final_simplex r) <= 3)%nat.
Proof.
  intros T. induction n as [|n IH]; intros s d r OK; cbn [gjk_loop].
  - intros H F. assert (r = Gjk true s (Ok (V3 0 0 0))) as -> by congruence. discriminate F.
  - destruct (support A B d) as [p| |] eqn:Es; cbn [bind]; try discriminate. apply support_spec in Es. destruct Es as (VD & _). destruct (v3dot p d <? 0).
    + intros H _. assert (r = Gjk false s (closest_on_simplex s)) as -> by congruence. cbn [final_simplex]. destruct s as [|? [|? [|? [|? ?]]]]; destruct OK as (_ & Sh); try contradiction; cbn; lia.
    + destruct (handle_ok A B tol s d p T OK VD) as (hit & s' & d' & Eh & F & Hf & Ht). rewrite Eh. cbn [bind]. destruct hit; [|apply IH, Hf; reflexivity].
      intros H G. assert (r = Gjk true s' (Ok cp0)) as -> by congruence. discriminate G.
Qed.
Lemma gjk_closest : forall A B cp0 tol n r, 0 <= tol -> gjk A B [] cp0 tol n = Ok r -> collides r = false -> NoDup (final_simplex r) ->
  exists p, closest r = Ok p /\ nearest (in_hull3 (final_simplex r)) origin p.
Proof.
  intros A B cp0 tol n r T. unfold gjk. destruct (get A 0) as [a| |]; cbn [bind]; try discriminate. destruct (get B 0) as [b| |]; cbn [bind]; try discriminate.
  cbv zeta. destruct (support _ _ _) as [p| |] eqn:Es; cbn [bind]; try discriminate. apply support_spec in Es. destruct Es as (VD & _).
  intros H F N. rewrite (loop_closest _ _ _ _ _ _ _ _ H F). apply simplex_nearest; [|exact N]. eapply (loop_false_small A B cp0 tol n T); [apply first_state; exact VD|exact H|exact F].
Qed.
