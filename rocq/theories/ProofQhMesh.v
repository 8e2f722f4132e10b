(** Convex triangulated surfaces: the facets that a point sees, and the surface
    with the point added. *)
From Coq Require Import List Arith Bool ZArith Reals Lra Lia Permutation.
From Verif Require Import Base ModelPlane ModelQuickhull SpecQuickhull ProofQhGeo.
Import ListNotations.
Local Open Scope R_scope.

Definition nx (v : three) : three := match v with I0 => I1 | I1 => I2 | I2 => I0 end.
Lemma nx3 v : nx (nx (nx v)) = v. Proof. destruct v; reflexivity. Qed.
Lemma nx_ne v : nx v <> v. Proof. destruct v; discriminate. Qed.
Lemma nx2_ne v : nx (nx v) <> v. Proof. destruct v; discriminate. Qed.
Lemma nx_inj v w : nx v = nx w -> v = w. Proof. destruct v, w; intros E; try reflexivity; discriminate. Qed.
Lemma three_cases v w : w = v \/ w = nx v \/ w = nx (nx v). Proof. destruct v, w; auto. Qed.
Definition edge (t : tri nat) (v : three) : nat * nat := (tget (nx v) t, tget (nx (nx v)) t).
Definition rev2 (e : nat * nat) : nat * nat := (snd e, fst e).
Lemma rev2_rev2 e : rev2 (rev2 e) = e. Proof. destruct e; reflexivity. Qed.
Definition InT (i : nat) (t : tri nat) : Prop := exists v, tget v t = i.
Lemma InT_dec i t : {InT i t} + {~ InT i t}.
Proof.
  destruct (Nat.eq_dec (t0 t) i) as [E|A]; [left; exists I0; exact E|]. destruct (Nat.eq_dec (t1 t) i) as [E|B]; [left; exists I1; exact E|].
  destruct (Nat.eq_dec (t2 t) i) as [E|C]; [left; exists I2; exact E|]. right. intros [[| |] H]; contradiction.
Qed.
Lemma InT_side i t v : InT i t <-> i = tget v t \/ i = tget (nx v) t \/ i = tget (nx (nx v)) t.
Proof.
  split; [intros [w <-]; destruct (three_cases v w) as [->|[->| ->]]; auto|]. intros [->|[->| ->]]; eexists; reflexivity.
Qed.
Lemma tget_tset {A} v w (x : A) t : tget w (tset v x t) = if three_eqb v w then x else tget w t.
Proof. destruct v, w; reflexivity. Qed.
Lemma tget_same {A} v (x : A) t : tget v (tset v x t) = x. Proof. destruct v; reflexivity. Qed.
Lemma tget_other {A} v w (x : A) t : v <> w -> tget w (tset v x t) = tget w t. Proof. destruct v, w; intros; try reflexivity; contradiction. Qed.
Lemma tri_ext {A} (s t : tri A) : (forall v, tget v s = tget v t) -> s = t.
Proof. destruct s, t. intros H. pose proof (H I0). pose proof (H I1). pose proof (H I2). cbn in *. congruence. Qed.

Section Mesh.
Variable P : nat -> v3r.
Variable n : nat.

Definition VT (t : tri nat) (x : v3r) : R := vol (P (t0 t)) (P (t1 t)) (P (t2 t)) x.
Definition CT (t : tri nat) : v3r := cr (P (t0 t)) (P (t1 t)) (P (t2 t)).
Lemma VT_side t v x : VT t x = vol (P (tget (nx v) t)) (P (tget (nx (nx v)) t)) (P (tget v t)) x.
Proof. unfold VT. destruct v; cbn [nx tget]; [symmetry; apply vol_rot|apply (vol_rot (P (t2 t)))|reflexivity]. Qed.
Lemma VT_at i t : InT i t -> VT t (P i) = 0.
Proof. intros [v <-]. unfold VT. destruct v; cbn [tget]; [apply vol_at_a|apply vol_at_b|apply vol_at_c]. Qed.
Lemma VT_mix t s x y : VT t (mix s x y) = (1 - s) * VT t x + s * VT t y. Proof. apply vol_mix. Qed.
Lemma VT_shift t x u : VT t (rvadd x u) = VT t x + rvdot (CT t) u. Proof. apply vol_shift. Qed.
Definition good_tri (t : tri nat) : Prop := (forall v, (tget v t < n)%nat) /\ forall v w, tget v t = tget w t -> v = w.
Record mesh (L : list nat) (vt : nat -> tri nat) (nb : nat -> three -> nat) : Prop := {
  m_nodup : NoDup L;
  m_tri : forall f, In f L -> good_tri (vt f);
  m_low : forall f g i, In f L -> In g L -> InT i (vt g) -> ~ InT i (vt f) -> VT (vt f) (P i) < 0;
  m_inj : forall f g v w, In f L -> In g L -> edge (vt f) v = edge (vt g) w -> f = g /\ v = w;
  m_nbr : forall f v, In f L -> In (nb f v) L /\ exists w, edge (vt (nb f v)) w = rev2 (edge (vt f) v);
  m_four : forall f, In f L -> exists g i, In g L /\ InT i (vt g) /\ ~ InT i (vt f);
  m_some : L <> [] }.

Section One.
Variables (L : list nat) (vt : nat -> tri nat) (nb : nat -> three -> nat).
Hypothesis M : mesh L vt nb.

Lemma nbr_back f v w : In f L -> edge (vt (nb f v)) w = rev2 (edge (vt f) v) -> nb (nb f v) w = f.
Proof.
  intros I E. destruct (m_nbr _ _ _ M f v I) as [J _]. destruct (m_nbr _ _ _ M (nb f v) w J) as [K (w' & E')].
  rewrite E, rev2_rev2 in E'. exact (proj1 (m_inj _ _ _ M _ _ _ _ K I E')).
Qed.
(** the two facets at an edge *)
Lemma side_facts f v : In f L -> exists w, let g := nb f v in In g L /\ edge (vt g) w = rev2 (edge (vt f) v) /\ nb g w = f /\
  tget (nx w) (vt g) = tget (nx (nx v)) (vt f) /\ tget (nx (nx w)) (vt g) = tget (nx v) (vt f) /\
  ~ InT (tget w (vt g)) (vt f) /\ ~ InT (tget v (vt f)) (vt g) /\ VT (vt f) (P (tget w (vt g))) < 0 /\ VT (vt g) (P (tget v (vt f))) < 0.
Proof.
  intros I. destruct (m_nbr _ _ _ M f v I) as [J (w & E)]. exists w. cbv zeta. set (g := nb f v) in *.
  pose proof (nbr_back f v w I E) as B. fold g in B.
  unfold edge, rev2 in E. cbn [fst snd] in E. injection E as E1 E2.
  destruct (m_tri _ _ _ M f I) as [_ Df]. destruct (m_tri _ _ _ M g J) as [_ Dg].
  assert (tget w (vt g) <> tget v (vt f)) as NE.
  { intros C. destruct (m_four _ _ _ M f I) as (h & i & H & Hi & Ni).
    assert (~ InT i (vt g)) as Ng. { intros G. apply Ni. apply (InT_side i _ v). apply (InT_side i _ w) in G. rewrite E1, E2, C in G. tauto. }
    pose proof (m_low _ _ _ M f h i I H Hi Ni) as A. pose proof (m_low _ _ _ M g h i J H Hi Ng) as A'.
    rewrite (VT_side _ v) in A. rewrite (VT_side _ w), E1, E2, C, vol_swap in A'. lra. }
  assert (~ InT (tget w (vt g)) (vt f)) as N1.
  { intros C. apply (InT_side _ _ v) in C as [C|[C|C]]; [contradiction|rewrite <- E2 in C; apply Dg in C; symmetry in C; exact (nx2_ne _ C)|rewrite <- E1 in C; apply Dg in C; symmetry in C; exact (nx_ne _ C)]. }
  assert (~ InT (tget v (vt f)) (vt g)) as N2.
  { intros C. apply (InT_side _ _ w) in C as [C|[C|C]]; [congruence|rewrite E1 in C; apply Df in C; symmetry in C; exact (nx2_ne _ C)|rewrite E2 in C; apply Df in C; symmetry in C; exact (nx_ne _ C)]. }
  repeat split; try assumption.
  - unfold edge, rev2. cbn [fst snd]. congruence.
  - apply (m_low _ _ _ M f g); [exact I|exact J|eexists; reflexivity|exact N1].
  - apply (m_low _ _ _ M g f); [exact J|exact I|eexists; reflexivity|exact N2].
Qed.
Lemma low_le f g i : In f L -> In g L -> InT i (vt g) -> VT (vt f) (P i) <= 0.
Proof. intros I J T. destruct (InT_dec i (vt f)) as [X|X]; [rewrite (VT_at _ _ X); lra|left; exact (m_low _ _ _ M f g i I J T X)]. Qed.
Lemma CT_nonzero f : In f L -> CT (vt f) <> RV 0 0 0.
Proof.
  intros I E. destruct (m_four _ _ _ M f I) as (g & i & J & T & N). pose proof (m_low _ _ _ M f g i I J T N) as A.
  unfold VT in A. rewrite (cr_zero_vol _ _ _ _ E) in A. lra.
Qed.
Definition tbary (l0 l1 l2 : R) (t : tri nat) : v3r := bary l0 l1 l2 (P (t0 t)) (P (t1 t)) (P (t2 t)).
Lemma VT_tbary s l0 l1 l2 t : l0 + l1 + l2 = 1 -> VT s (tbary l0 l1 l2 t) = l0 * VT s (P (t0 t)) + l1 * VT s (P (t1 t)) + l2 * VT s (P (t2 t)).
Proof. apply vol_bary. Qed.
(** a point of the plane of a facet under its neighbours is in the triangle *)
Lemma in_triangle f y : In f L -> VT (vt f) y = 0 -> (forall v, VT (vt (nb f v)) y <= 0) ->
  exists l0 l1 l2, l0 + l1 + l2 = 1 /\ 0 <= l0 /\ 0 <= l1 /\ 0 <= l2 /\ y = tbary l0 l1 l2 (vt f).
Proof.
  intros I Z H. destruct (barycentric _ _ _ y (CT_nonzero f I) Z) as (l0 & l1 & l2 & E & Y). fold (tbary l0 l1 l2 (vt f)) in Y.
  assert (forall v, let g := vt (nb f v) in VT g (P (tget (nx v) (vt f))) = 0 /\ VT g (P (tget (nx (nx v)) (vt f))) = 0 /\ VT g (P (tget v (vt f))) < 0) as K.
  { intros v. destruct (side_facts f v I) as (w & J & _ & _ & E1 & E2 & _ & _ & _ & A). cbv zeta. split; [apply VT_at; exists (nx (nx w)); exact E2|]. split; [apply VT_at; exists (nx w); exact E1|exact A]. }
  exists l0, l1, l2. split; [exact E|].
  pose proof (H I0) as H0. pose proof (H I1) as H1. pose proof (H I2) as H2. rewrite Y, VT_tbary in H0, H1, H2 by exact E.
  destruct (K I0) as (A0 & B0 & C0). destruct (K I1) as (A1 & B1 & C1). destruct (K I2) as (A2 & B2 & C2). cbn [nx tget] in *.
  rewrite A0, B0 in H0. rewrite A1, B1 in H1. rewrite A2, B2 in H2. split; [nra|]. split; [nra|]. split; [nra|exact Y].
Qed.
Lemma triangle_low s f l0 l1 l2 : l0 + l1 + l2 = 1 -> 0 <= l0 -> 0 <= l1 -> 0 <= l2 -> (forall i, InT i (vt f) -> VT s (P i) <= 0) -> VT s (tbary l0 l1 l2 (vt f)) <= 0.
Proof.
  intros E A B C H. rewrite VT_tbary by exact E. pose proof (H _ (ex_intro _ I0 eq_refl)) as X. pose proof (H _ (ex_intro _ I1 eq_refl)) as Y. pose proof (H _ (ex_intro _ I2 eq_refl)) as Z. cbn [tget] in *. nra.
Qed.
Definition cent (f : nat) : v3r := tbary (1 / 3) (1 / 3) (1 / 3) (vt f).
Lemma VT_cent s f : VT s (cent f) = (VT s (P (t0 (vt f))) + VT s (P (t1 (vt f))) + VT s (P (t2 (vt f)))) / 3.
Proof. unfold cent. rewrite VT_tbary by lra. field. Qed.
Lemma cent_self f : VT (vt f) (cent f) = 0.
Proof. rewrite VT_cent. rewrite !VT_at; [field|exists I2; reflexivity|exists I1; reflexivity|exists I0; reflexivity]. Qed.
(** two facets do not have the same vertices *)
Lemma not_within f g : In f L -> In g L -> f <> g -> exists v, ~ InT (tget v (vt f)) (vt g).
Proof.
  intros I J N. destruct (InT_dec (tget I0 (vt f)) (vt g)) as [A|A]; [|exists I0; exact A]. destruct (InT_dec (tget I1 (vt f)) (vt g)) as [B|B]; [|exists I1; exact B].
  destruct (InT_dec (tget I2 (vt f)) (vt g)) as [C|C]; [|exists I2; exact C]. exfalso.
  destruct (m_tri _ _ _ M f I) as [_ D]. assert (t0 (vt f) <> t1 (vt f)) as D1 by (intros X; specialize (D I0 I1 X); discriminate).
  assert (t0 (vt f) <> t2 (vt f)) as D2 by (intros X; specialize (D I0 I2 X); discriminate). assert (t1 (vt f) <> t2 (vt f)) as D3 by (intros X; specialize (D I1 I2 X); discriminate).
  cbn [tget] in A, B, C.
  assert ((exists v w, edge (vt f) v = edge (vt g) w) \/ (forall i, InT i (vt g) -> InT i (vt f)) /\ forall x, VT (vt g) x = - VT (vt f) x) as [(v & w & E)|[S F]].
  { destruct A as [a A], B as [b B], C as [c C]. unfold InT, VT, edge. destruct (vt f) as [f0 f1 f2], (vt g) as [g0 g1 g2]. cbn [t0 t1 t2] in *.
    destruct a, b, c; cbn [tget t0 t1 t2] in A, B, C; subst; try congruence.
    - left; exists I0, I0; reflexivity.
    - right; split; [intros i [[| |] <-]; [exists I0|exists I2|exists I1]; reflexivity|intros x; vols; ring].
    - right; split; [intros i [[| |] <-]; [exists I1|exists I0|exists I2]; reflexivity|intros x; vols; ring].
    - left; exists I0, I1; reflexivity.
    - left; exists I0, I2; reflexivity.
    - right; split; [intros i [[| |] <-]; [exists I2|exists I1|exists I0]; reflexivity|intros x; vols; ring]. }
  - exact (N (proj1 (m_inj _ _ _ M _ _ _ _ I J E))).
  - destruct (m_four _ _ _ M f I) as (h & i & H & Hi & Ni). pose proof (m_low _ _ _ M f h i I H Hi Ni) as X.
    assert (~ InT i (vt g)) as Ng by (intros Y; apply Ni, S; exact Y). pose proof (m_low _ _ _ M g h i J H Hi Ng) as Y. rewrite F in Y. lra.
Qed.
Lemma cent_low s f : (forall i, InT i (vt f) -> VT s (P i) <= 0) -> (exists i, InT i (vt f) /\ VT s (P i) < 0) -> VT s (cent f) < 0.
Proof.
  intros H (i & [v Hi] & A). rewrite VT_cent. pose proof (H _ (ex_intro _ I0 eq_refl)) as X. pose proof (H _ (ex_intro _ I1 eq_refl)) as Y. pose proof (H _ (ex_intro _ I2 eq_refl)) as Z.
  cbn [tget] in *. subst i. destruct v; cbn [tget] in A; lra.
Qed.
Lemma cent_other f g : In f L -> In g L -> f <> g -> VT (vt g) (cent f) < 0.
Proof.
  intros I J N. apply cent_low; [intros i Hi; exact (low_le g f i J I Hi)|]. destruct (not_within f g I J N) as [v H].
  exists (tget v (vt f)). split; [exists v; reflexivity|]. apply (m_low _ _ _ M g f); [exact J|exact I|exists v; reflexivity|exact H].
Qed.
Lemma cent_le f g : In f L -> In g L -> VT (vt g) (cent f) <= 0.
Proof. intros I J. destruct (Nat.eq_dec f g) as [->|N]; [rewrite cent_self; lra|left; apply cent_other; assumption]. Qed.

(** ** The facets that a point sees are connected *)
Section Connected.
Variables (q : v3r) (F0 : nat) (V : nat -> Prop).
Definition seen (f : nat) : Prop := 0 < VT (vt f) q.
Hypothesis IF : In F0 L.
Hypothesis SF : seen F0.
Hypothesis VF : V F0.
Hypothesis closed : forall f v, In f L -> V f -> seen (nb f v) -> V (nb f v).
Let pot (f : nat) : R := VT (vt f) (cent F0) / VT (vt f) q.
Lemma better G : In G L -> seen G -> G <> F0 -> exists v, seen (nb G v) /\ pot G < pot (nb G v).
Proof.
  intros I S N. pose proof (cent_other F0 G IF I (not_eq_sym N)) as X. set (x := cent F0) in *. unfold seen in S.
  set (t := VT (vt G) q / (VT (vt G) q - VT (vt G) x)). assert (0 < t < 1) as T.
  { unfold t. split; [apply Rmult_lt_0_compat; [exact S|apply Rinv_0_lt_compat; lra]|]. apply (Rmult_lt_reg_r (VT (vt G) q - VT (vt G) x)); [lra|]. unfold Rdiv. rewrite Rmult_assoc, Rinv_l by lra. lra. }
  set (y := mix t q x). assert (VT (vt G) y = 0) as Z by (unfold y; rewrite VT_mix; unfold t; field; lra).
  assert (0 < VT (vt F0) y) as Y. { unfold y. rewrite VT_mix. unfold x. rewrite cent_self. unfold seen in SF. nra. }
  assert (exists v, 0 < VT (vt (nb G v)) y) as [v A].
  { destruct (Rlt_dec 0 (VT (vt (nb G I0)) y)) as [A|A]; [exists I0; exact A|]. destruct (Rlt_dec 0 (VT (vt (nb G I1)) y)) as [B|B]; [exists I1; exact B|].
    destruct (Rlt_dec 0 (VT (vt (nb G I2)) y)) as [C|C]; [exists I2; exact C|]. exfalso.
    destruct (in_triangle G y I Z) as (l0 & l1 & l2 & E & P0 & P1 & P2 & Q); [intros [| |]; lra|].
    assert (VT (vt F0) y <= 0) by (rewrite Q; apply triangle_low; try assumption; intros i Hi; exact (low_le F0 G i IF I Hi)). lra. }
  exists v. destruct (m_nbr _ _ _ M G v I) as [J _]. set (K := nb G v) in *. pose proof (cent_le F0 K IF J) as XK. fold x in XK.
  unfold y in A, Z. rewrite VT_mix in A, Z. assert (seen K) as SK by (unfold seen; nra). split; [exact SK|]. unfold pot. fold x. unfold seen in SK.
  apply (Rmult_lt_reg_r (VT (vt G) q)); [exact S|]. unfold Rdiv. rewrite Rmult_assoc, Rinv_l, Rmult_1_r by lra.
  apply (Rmult_lt_reg_r (VT (vt K) q)); [exact SK|]. replace (VT (vt K) x * / VT (vt K) q * VT (vt G) q * VT (vt K) q) with (VT (vt K) x * VT (vt G) q) by (field; lra).
  assert (t * (VT (vt G) x * VT (vt K) q) < t * (VT (vt K) x * VT (vt G) q)); [|nra].
  assert (t * VT (vt G) x = - (1 - t) * VT (vt G) q) as Q by lra. nra.
Qed.
Lemma all_seen G : In G L -> seen G -> V G.
Proof.
  enough (forall m G, (length (filter (fun f => if Rlt_dec (pot G) (pot f) then true else false) L) <= m)%nat -> In G L -> seen G -> V G) as H by (intros I S; exact (H _ G (le_n _) I S)).
  clear G. induction m as [|m IH]; intros G Len I S.
  - destruct (Nat.eq_dec G F0) as [->|N]; [exact VF|]. exfalso. destruct (better G I S N) as (v & _ & PT). destruct (m_nbr _ _ _ M G v I) as [J _].
    destruct (filter _ L) eqn:E in Len; [|cbn in Len; lia]. assert (In (nb G v) []) as [] . rewrite <- E. apply filter_In. split; [exact J|]. destruct (Rlt_dec _ _); [reflexivity|contradiction].
  - destruct (Nat.eq_dec G F0) as [->|N]; [exact VF|]. destruct (better G I S N) as (v & SK & PT). destruct (side_facts G v I) as (w & J & _ & B & _).
    set (K := nb G v) in *. rewrite <- B. apply closed; [exact J| |rewrite B; exact S]. apply IH; [|exact J|exact SK].
    enough (length (filter (fun f => if Rlt_dec (pot K) (pot f) then true else false) L) < length (filter (fun f => if Rlt_dec (pot G) (pot f) then true else false) L))%nat by lia.
    clear - PT J. induction L as [|a l IH]; [destruct J|]. cbn [filter]. destruct J as [->|J].
    + destruct (Rlt_dec (pot K) (pot K)); [lra|]. destruct (Rlt_dec (pot G) (pot K)); [|contradiction]. cbn [length]. apply le_n_S.
      clear IH. induction l as [|b l IH]; [apply le_n|]. cbn [filter]. destruct (Rlt_dec (pot K) (pot b)), (Rlt_dec (pot G) (pot b)); cbn [length]; try lia. lra.
    + specialize (IH J). destruct (Rlt_dec (pot K) (pot a)), (Rlt_dec (pot G) (pot a)); cbn [length]; try lia. lra.
Qed.
End Connected.

(** ** The surface is closed *)
Definition edges (f : nat) : list (nat * nat) := [edge (vt f) I0; edge (vt f) I1; edge (vt f) I2].
Lemma edges_in e f : In e (edges f) <-> exists v, e = edge (vt f) v.
Proof.
  split; [intros [<-|[<-|[<-|[]]]]; eexists; reflexivity|]. intros [v ->]. destruct v; [left|right; left|right; right; left]; reflexivity.
Qed.
Lemma edges_nodup : forall l, NoDup l -> incl l L -> NoDup (flat_map edges l).
Proof.
  induction l as [|a l IH]; intros N I; [constructor|]. inversion N as [|? ? Na Nl]; subst. cbn [flat_map].
  assert (In a L) as Ia by (apply I; left; reflexivity).
  assert (forall v w, edge (vt a) v = edge (vt a) w -> v = w) as D by (intros v w E; exact (proj2 (m_inj _ _ _ M _ _ _ _ Ia Ia E))).
  assert (forall e, In e (edges a) -> ~ In e (flat_map edges l)) as X.
  { intros e He C. apply in_flat_map in C as (b & Ib & Hb). apply edges_in in He as [v ->]. apply edges_in in Hb as [w E].
    apply (m_inj _ _ _ M) in E as [-> _]; [contradiction|exact Ia|apply I; right; exact Ib]. }
  cbn [edges app] in *. constructor; [|constructor; [|constructor]].
  - intros [C|[C|C]]; [apply D in C; discriminate|apply D in C; discriminate|]. exact (X _ (or_introl eq_refl) C).
  - intros [C|C]; [apply D in C; discriminate|]. exact (X _ (or_intror (or_introl eq_refl)) C).
  - intros C. exact (X _ (or_intror (or_intror (or_introl eq_refl))) C).
  - apply IH; [exact Nl|intros b Hb; apply I; right; exact Hb].
Qed.
Lemma edges_rev e : In e (flat_map edges L) -> In (rev2 e) (flat_map edges L).
Proof.
  intros H. apply in_flat_map in H as (f & I & H). apply edges_in in H as [v ->]. destruct (m_nbr _ _ _ M f v I) as [J (w & E)].
  apply in_flat_map. exists (nb f v). split; [exact J|]. apply edges_in. exists w. congruence.
Qed.
Lemma rev2_inj e e' : rev2 e = rev2 e' -> e = e'. Proof. intros E. rewrite <- (rev2_rev2 e), E. apply rev2_rev2. Qed.
Definition rsum (l : list R) : R := fold_right Rplus 0 l.
Lemma rsum_perm l l' : Permutation l l' -> rsum l = rsum l'.
Proof. induction 1; cbn [rsum fold_right] in *; unfold rsum in *; lra. Qed.
Lemma rsum_app l l' : rsum (l ++ l') = rsum l + rsum l'. Proof. induction l; cbn [app rsum fold_right]; unfold rsum in *; lra. Qed.
Definition xs (u : v3r) (e : nat * nat) : R := rvdot (rvcross (P (fst e)) (P (snd e))) u.
Lemma closed_sum u : rsum (map (fun f => rvdot (CT (vt f)) u) L) = 0.
Proof.
  assert (forall l, rsum (map (fun f => rvdot (CT (vt f)) u) l) = rsum (map (xs u) (flat_map edges l))) as E.
  { induction l as [|a l IH]; [reflexivity|]. cbn [flat_map]. rewrite map_app, rsum_app, <- IH. cbn [map rsum fold_right]. apply Rplus_eq_compat_r.
    unfold rsum, edges, edge, xs, CT, cr. destruct (vt a) as [i j k]. cbn [map fold_right fst snd tget nx t0 t1 t2]. vols. ring. }
  rewrite E. set (El := flat_map edges L).
  assert (Permutation El (map rev2 El)) as PE.
  { apply NoDup_Permutation; [apply edges_nodup; [exact (m_nodup _ _ _ M)|apply incl_refl]| |].
    - apply FinFun.Injective_map_NoDup; [intros a b; apply rev2_inj|]. apply edges_nodup; [exact (m_nodup _ _ _ M)|apply incl_refl].
    - intros e. split; intros H; [apply in_map_iff; exists (rev2 e); split; [apply rev2_rev2|apply edges_rev; exact H]|].
      apply in_map_iff in H as (e' & <- & H). apply edges_rev. exact H. }
  pose proof (rsum_perm _ _ (Permutation_map (xs u) PE)) as Q. rewrite map_map in Q.
  assert (rsum (map (fun e => xs u (rev2 e)) El) = - rsum (map (xs u) El)) as N.
  { clear. induction El as [|e l IH]; cbn [map rsum fold_right]; [ring|]. unfold rsum in IH. rewrite IH. unfold xs, rev2. cbn [fst snd]. vols. ring. }
  lra.
Qed.
(** so the region inside is bounded *)
Lemma bounded u : u <> RV 0 0 0 -> exists f, In f L /\ 0 < rvdot (CT (vt f)) u.
Proof.
  intros U. destruct (Exists_dec (fun f => 0 < rvdot (CT (vt f)) u) L (fun f => Rlt_dec 0 _)) as [X|X]; [apply Exists_exists in X; exact X|]. exfalso.
  assert (forall f, In f L -> rvdot (CT (vt f)) u <= 0) as A by (intros f I; apply Rnot_lt_le; intros Y; apply X, Exists_exists; exists f; auto).
  assert (forall f, In f L -> rvdot (CT (vt f)) u = 0) as Z.
  { pose proof (closed_sum u) as S. clear - A S. assert (forall l, incl l L -> rsum (map (fun f => rvdot (CT (vt f)) u) l) <= 0) as N.
    { induction l as [|a l IH]; intros I; cbn [map rsum fold_right]; [lra|]. unfold rsum in IH. pose proof (IH (fun x H => I x (or_intror H))). pose proof (A a (I a (or_introl eq_refl))). lra. }
    intros f I. apply in_split in I as (l1 & l2 & E). rewrite E, map_app, rsum_app in S. cbn [map rsum fold_right] in S.
    pose proof (N l1) as N1. pose proof (N l2) as N2. pose proof (A f) as Af. rewrite E in N1, N2, Af.
    specialize (N1 (fun x H => in_or_app _ _ _ (or_introl H))). specialize (N2 (fun x H => in_or_app l1 (f :: l2) x (or_intror (or_intror H)))). specialize (Af (in_elt _ _ _)). unfold rsum in *. lra. }
  destruct L as [|f l] eqn:EL; [exact (m_some _ _ _ M eq_refl)|]. rewrite <- EL in *. assert (In f L) as I by (rewrite EL; left; reflexivity).
  set (a := P (t0 (vt f))). set (y := rvadd a u).
  assert (VT (vt f) y = 0) as Y. { unfold y. rewrite VT_shift, (Z f I). unfold a. rewrite VT_at; [ring|exists I0; reflexivity]. }
  destruct (barycentric _ _ _ y (CT_nonzero f I) Y) as (l0 & l1 & l2 & E & Q). fold (tbary l0 l1 l2 (vt f)) in Q.
  assert (forall v, let g := vt (nb f v) in VT g (P (tget (nx v) (vt f))) = 0 /\ VT g (P (tget (nx (nx v)) (vt f))) = 0 /\ VT g (P (tget v (vt f))) < 0 /\ VT g y = VT g a) as K.
  { intros v. destruct (side_facts f v I) as (w & J & _ & _ & E1 & E2 & _ & _ & _ & B). cbv zeta. split; [apply VT_at; exists (nx (nx w)); exact E2|]. split; [apply VT_at; exists (nx w); exact E1|]. split; [exact B|].
    unfold y. rewrite VT_shift, (Z _ J). ring. }
  destruct (K I1) as (A1 & B1 & C1 & D1). destruct (K I2) as (A2 & B2 & C2 & D2). cbn [nx tget] in *.
  rewrite Q, VT_tbary in D1, D2 by exact E. unfold a in D1, D2. rewrite A1, B1 in D1. rewrite A2, B2 in D2.
  assert (l1 = 0) as -> by nra. assert (l2 = 0) as -> by nra. assert (l0 = 1) as -> by lra.
  apply U. unfold y, tbary, bary, a, rvadd in Q. destruct u as [u1 u2 u3]. cbn [rx ry rz] in Q. injection Q as Q1 Q2 Q3. f_equal; lra.
Qed.

(** ** The surface with a point added *)
Section Add.
Variable q : nat.
Hypothesis Bq : (q < n)%nat.
Hypothesis Nq : forall f, In f L -> ~ InT q (vt f).
Hypothesis NZ : forall f, In f L -> VT (vt f) (P q) <> 0.
Definition vis (f : nat) : Prop := 0 < VT (vt f) (P q).
Definition vis_dec f : {vis f} + {~ vis f} := Rlt_dec 0 (VT (vt f) (P q)).
Lemma not_vis f : In f L -> ~ vis f -> VT (vt f) (P q) < 0.
Proof. intros I N. unfold vis in N. pose proof (NZ f I). lra. Qed.
Lemma some_hidden F0 : In F0 L -> vis F0 -> exists f, In f L /\ ~ vis f.
Proof.
  intros I V. set (x := cent F0). set (u := rvsub x (P q)).
  assert (P q = rvadd x (rvneg u)) as E by (unfold u, rvadd, rvneg, rvsub; destruct (P q) as [p1 p2 p3]; cbn [rx ry rz]; f_equal; ring).
  assert (u <> RV 0 0 0) as U.
  { intros U. unfold vis in V. rewrite E, VT_shift, U in V. unfold x in V. rewrite cent_self in V. unfold rvdot, rvneg in V. cbn [rx ry rz] in V. lra. }
  destruct (bounded u U) as (f & J & B). exists f. split; [exact J|]. unfold vis. rewrite E, VT_shift. pose proof (cent_le F0 f I J) as C. fold x in C.
  assert (rvdot (CT (vt f)) (rvneg u) = - rvdot (CT (vt f)) u) as N by (unfold rvdot, rvneg; cbn [rx ry rz]; ring). lra.
Qed.
Definition hor (f : nat) (v : three) : Prop := In f L /\ vis f /\ ~ vis (nb f v).
Definition tail (f : nat) (v : three) : nat := tget (nx v) (vt f).
Definition head (f : nat) (v : three) : nat := tget (nx (nx v)) (vt f).
Definition nt (f : nat) (v : three) : tri nat := tset v q (vt f).
Lemma nt_vertices f v i : InT i (nt f v) <-> i = q \/ i = tail f v \/ i = head f v.
Proof. rewrite (InT_side i _ v). unfold nt, tail, head. rewrite tget_same, (tget_other v (nx v)), (tget_other v (nx (nx v))) by (intros C; symmetry in C; first [exact (nx_ne _ C)|exact (nx2_ne _ C)]). reflexivity. Qed.
Lemma nt_vol f v x : VT (nt f v) x = vol (P (tail f v)) (P (head f v)) (P q) x.
Proof. rewrite (VT_side _ v). unfold nt, tail, head. rewrite tget_same, (tget_other v (nx v)), (tget_other v (nx (nx v))) by (intros C; symmetry in C; first [exact (nx_ne _ C)|exact (nx2_ne _ C)]). reflexivity. Qed.
Lemma new_low f v x : hor f v -> VT (vt f) x <= 0 -> VT (vt (nb f v)) x <= 0 ->
  VT (nt f v) x <= 0 /\ (VT (nt f v) x = 0 -> VT (vt f) x = 0 /\ VT (vt (nb f v)) x = 0).
Proof.
  intros (I & V & N) A B. destruct (side_facts f v I) as (w & J & _ & _ & E1 & E2 & _ & _ & C & _). rewrite nt_vol.
  pose proof (not_vis _ J N) as NV. unfold vis in V. rewrite (VT_side _ v) in V, A, C |- *. rewrite (VT_side (vt (nb f v)) w) in NV, B |- *. rewrite E1, E2 in NV, B |- *.
  unfold tail, head. apply (horizon_combination _ _ _ _ _ _ V NV C A B).
Qed.
Lemma new_strict f v x : hor f v -> (forall g, In g L -> VT (vt g) x < 0) -> VT (nt f v) x < 0.
Proof.
  intros Hh H. pose proof Hh as (If & _). destruct (m_nbr _ _ _ M f v If) as [J _].
  destruct (new_low f v x Hh (Rlt_le _ _ (H f If)) (Rlt_le _ _ (H _ J))) as [[A|A] B]; [exact A|]. specialize (B A). pose proof (H f If). lra.
Qed.
Definition old (i : nat) : Prop := exists g, In g L /\ InT i (vt g).
Lemma new_old_low f v i : hor f v -> old i -> ~ InT i (nt f v) -> VT (nt f v) (P i) < 0.
Proof.
  intros H (g & J & T) N. pose proof H as (I & V & Nv). destruct (side_facts f v I) as (w & K & _ & _ & E1 & E2 & _ & X & _).
  destruct (new_low f v (P i) H (low_le f g i I J T) (low_le _ g i K J T)) as [A B]. destruct A as [A|A]; [exact A|]. exfalso. specialize (B A) as [B1 B2].
  assert (InT i (vt f)) as If. { destruct (InT_dec i (vt f)) as [Y|Y]; [exact Y|]. pose proof (m_low _ _ _ M f g i I J T Y). lra. }
  assert (InT i (vt (nb f v))) as Ig. { destruct (InT_dec i (vt (nb f v))) as [Y|Y]; [exact Y|]. pose proof (m_low _ _ _ M _ g i K J T Y). lra. }
  apply N. apply nt_vertices. unfold tail, head. apply (InT_side _ _ v) in If as [->|[->| ->]]; [contradiction|auto|auto].
Qed.
Lemma old_q i : old i -> i <> q. Proof. intros (g & I & T) ->. exact (Nq g I T). Qed.
Lemma old_side f v : In f L -> old (tget v (vt f)). Proof. intros I. exists f. split; [exact I|eexists; reflexivity]. Qed.
Lemma tail_head f v : In f L -> tail f v <> head f v.
Proof. intros I E. apply (proj2 (m_tri _ _ _ M f I)) in E. symmetry in E. exact (nx_ne _ E). Qed.
(** at most one edge of the horizon starts, and one ends, at a vertex *)
Lemma hor_tail f v f' v' : hor f v -> hor f' v' -> tail f v = tail f' v' -> f = f' /\ v = v'.
Proof.
  intros H H' T. assert (head f v = head f' v') as E.
  { destruct (Nat.eq_dec (head f v) (head f' v')) as [E|N]; [exact E|]. exfalso. pose proof H as (I & _). pose proof H' as (I' & _).
    assert (~ InT (head f' v') (nt f v)) as A. { intros C. apply nt_vertices in C as [C|[C|C]]; [exact (old_q _ (old_side f' (nx (nx v')) I') C)|rewrite T in C; symmetry in C; exact (tail_head f' v' I' C)|congruence]. }
    assert (~ InT (head f v) (nt f' v')) as B. { intros C. apply nt_vertices in C as [C|[C|C]]; [exact (old_q _ (old_side f (nx (nx v)) I) C)|rewrite <- T in C; symmetry in C; exact (tail_head f v I C)|congruence]. }
    pose proof (new_old_low f v _ H (old_side f' (nx (nx v')) I') A) as X. pose proof (new_old_low f' v' _ H' (old_side f (nx (nx v)) I) B) as Y.
    rewrite nt_vol in X, Y. fold (head f' v') in X. fold (head f v) in Y. rewrite <- T in Y.
    assert (vol (P (tail f v)) (P (head f v)) (P q) (P (head f' v')) = - vol (P (tail f v)) (P (head f' v')) (P q) (P (head f v))) as Q by (vols; ring). lra. }
  apply (m_inj _ _ _ M); [apply H|apply H'|]. unfold edge. unfold tail, head in *. congruence.
Qed.
Lemma hor_head f v f' v' : hor f v -> hor f' v' -> head f v = head f' v' -> f = f' /\ v = v'.
Proof.
  intros H H' T. assert (tail f v = tail f' v') as E.
  { destruct (Nat.eq_dec (tail f v) (tail f' v')) as [E|N]; [exact E|]. exfalso. pose proof H as (I & _). pose proof H' as (I' & _).
    assert (~ InT (tail f' v') (nt f v)) as A. { intros C. apply nt_vertices in C as [C|[C|C]]; [exact (old_q _ (old_side f' (nx v') I') C)|congruence|rewrite T in C; exact (tail_head f' v' I' C)]. }
    assert (~ InT (tail f v) (nt f' v')) as B. { intros C. apply nt_vertices in C as [C|[C|C]]; [exact (old_q _ (old_side f (nx v) I) C)|congruence|rewrite <- T in C; exact (tail_head f v I C)]. }
    pose proof (new_old_low f v _ H (old_side f' (nx v') I') A) as X. pose proof (new_old_low f' v' _ H' (old_side f (nx v) I) B) as Y.
    rewrite nt_vol in X, Y. fold (tail f' v') in X. fold (tail f v) in Y. rewrite <- T in Y.
    assert (vol (P (tail f v)) (P (head f v)) (P q) (P (tail f' v')) = - vol (P (tail f' v')) (P (head f v)) (P q) (P (tail f v))) as Q by (vols; ring). lra. }
  apply (m_inj _ _ _ M); [apply H|apply H'|]. unfold edge. unfold tail, head in *. congruence.
Qed.
(** and one of each if there is one: the edges of the seen facets at a vertex
    come in pairs *)
Definition VL : list nat := filter (fun f => if vis_dec f then true else false) L.
Lemma VL_in f : In f VL <-> In f L /\ vis f.
Proof. unfold VL. rewrite filter_In. destruct (vis_dec f); intuition discriminate. Qed.
Definition at_end (s : bool) (i : nat) (e : nat * nat) : bool := Nat.eqb i (if s then fst e else snd e).
Lemma balanced i : forall l, incl l L -> length (filter (at_end true i) (flat_map edges l)) = length (filter (at_end false i) (flat_map edges l)).
Proof.
  induction l as [|a l IH]; intros I; [reflexivity|]. cbn [flat_map]. rewrite !filter_app, !app_length, IH by (intros b H; apply I; right; exact H). f_equal.
  unfold edges, edge, at_end. cbn [nx tget filter fst snd]. destruct (vt a) as [x y z]. cbn [t0 t1 t2].
  destruct (Nat.eqb i x), (Nat.eqb i y), (Nat.eqb i z); reflexivity.
Qed.
Definition end_of (s : bool) (f : nat) (v : three) : nat := if s then tail f v else head f v.
Lemma hor_next s f v : hor f v -> exists f' v', hor f' v' /\ end_of s f' v' = end_of (negb s) f v.
Proof.
  intros H. set (i := end_of (negb s) f v). set (E := flat_map edges VL).
  assert (incl VL L) as IV by (intros x; rewrite VL_in; tauto).
  assert (NoDup E) as NE by (apply edges_nodup; [apply NoDup_filter; exact (m_nodup _ _ _ M)|exact IV]).
  destruct (Exists_dec (fun e => ~ In (rev2 e) E) (filter (at_end s i) E)) as [X|X].
  { intros e. destruct (in_dec (fun a b : nat * nat => ltac:(decide equality; apply Nat.eq_dec)) (rev2 e) E); [right|left]; tauto. }
  - apply Exists_exists in X as (e & He & Ne). apply filter_In in He as [He A]. apply in_flat_map in He as (f' & If & He). apply edges_in in He as [v' ->]. apply VL_in in If as [If Vf].
    exists f', v'. split.
    + split; [exact If|]. split; [exact Vf|]. intros Vn. apply Ne. destruct (m_nbr _ _ _ M f' v' If) as [J (w & Ew)]. apply in_flat_map. exists (nb f' v'). split; [apply VL_in; auto|]. apply edges_in. exists w. congruence.
    + unfold at_end in A. apply Nat.eqb_eq in A. unfold end_of, tail, head. unfold edge in A. destruct s; cbn [fst snd] in A; congruence.
  - exfalso. pose proof H as (I & V & N).
    assert (~ In (rev2 (edge (vt f) v)) E) as NR.
    { intros C. apply in_flat_map in C as (g & Ig & C). apply edges_in in C as [w' C]. apply VL_in in Ig as [Ig Vg]. destruct (m_nbr _ _ _ M f v I) as [J (w & Ew)].
      rewrite <- Ew in C. apply (m_inj _ _ _ M) in C as [C _]; [|exact J|exact Ig]. rewrite C in N. contradiction. }
    assert (length (edge (vt f) v :: map rev2 (filter (at_end s i) E)) <= length (filter (at_end (negb s) i) E))%nat as Q.
    { apply NoDup_incl_length.
      - constructor.
        + intros C. apply in_map_iff in C as (e & Ee & C). apply filter_In in C as [C _]. apply NR. rewrite <- Ee, rev2_rev2. exact C.
        + apply FinFun.Injective_map_NoDup; [intros a b; apply rev2_inj|]. apply NoDup_filter. exact NE.
      - intros e [<-|C].
        + apply filter_In. split; [apply in_flat_map; exists f; split; [apply VL_in; auto|apply edges_in; eexists; reflexivity]|]. unfold at_end. apply Nat.eqb_eq. unfold i, end_of, tail, head, edge. destruct s; reflexivity.
        + apply in_map_iff in C as (e' & <- & C). apply filter_In. split.
          * destruct (in_dec (fun a b : nat * nat => ltac:(decide equality; apply Nat.eq_dec)) (rev2 e') E) as [Y|Y]; [exact Y|]. exfalso. apply X, Exists_exists. exists e'. auto.
          * apply filter_In in C as [_ C]. unfold at_end in *. destruct s; exact C. }
    cbn [length] in Q. rewrite map_length in Q. pose proof (balanced i VL IV) as BL. fold E in BL. destruct s; cbn [negb] in Q; lia.
Qed.

(** the new surface: facets that are not seen and one new facet for each edge of
    the horizon, [sl f v k] saying that it has number [k] *)
Section Step.
Variables (L' : list nat) (vt' : nat -> tri nat) (nb' : nat -> three -> nat) (sl : nat -> three -> nat -> Prop).
Hypothesis ND : NoDup L'.
Hypothesis from : forall k, In k L' -> (In k L /\ ~ vis k) \/ exists f v, sl f v k.
Hypothesis kept : forall k, In k L -> ~ vis k -> In k L' /\ vt' k = vt k.
Hypothesis slot : forall f v k, sl f v k -> hor f v /\ In k L' /\ vt' k = nt f v.
Hypothesis slot1 : forall f v k k', sl f v k -> sl f v k' -> k = k'.
Hypothesis slots : forall f v, hor f v -> exists k, sl f v k.
Hypothesis nb_kept : forall h v, In h L -> ~ vis h -> ~ vis (nb h v) -> nb' h v = nb h v.
Hypothesis nb_moved : forall h v w k, In h L -> ~ vis h -> sl (nb h v) w k -> edge (vt (nb h v)) w = rev2 (edge (vt h) v) -> nb' h v = k.
Hypothesis nb_new : forall f v k, sl f v k -> nb' k v = nb f v.
Hypothesis nb_next : forall f v k f' v' k', sl f v k -> sl f' v' k' -> head f v = tail f' v' -> nb' k (nx v) = k' /\ nb' k' (nx (nx v')) = k.
Hypothesis F0 : nat.
Hypothesis IF : In F0 L.
Hypothesis VF : vis F0.

Lemma nt_edge f v : edge (nt f v) v = edge (vt f) v.
Proof. unfold edge, nt. rewrite (tget_other v (nx v)), (tget_other v (nx (nx v))) by (intros C; symmetry in C; first [exact (nx_ne _ C)|exact (nx2_ne _ C)]). reflexivity. Qed.
Lemma nt_edge1 f v : edge (nt f v) (nx v) = (head f v, q).
Proof. unfold edge, nt, head. rewrite nx3, tget_same, (tget_other v (nx (nx v))) by (intros C; symmetry in C; exact (nx2_ne _ C)). reflexivity. Qed.
Lemma nt_edge2 f v : edge (nt f v) (nx (nx v)) = (q, tail f v).
Proof. unfold edge, nt, tail. rewrite nx3, tget_same, (tget_other v (nx v)) by (intros C; symmetry in C; exact (nx_ne _ C)). reflexivity. Qed.
Lemma cases' k : In k L' -> (In k L /\ ~ vis k /\ vt' k = vt k) \/ exists f v, sl f v k /\ hor f v /\ vt' k = nt f v.
Proof. intros I. destruct (from k I) as [[A B]|(f & v & S)]; [left|right; exists f, v]; [destruct (kept k A B); auto|destruct (slot f v k S) as (A & _ & B); auto]. Qed.
Lemma old_vertex' k i : In k L' -> InT i (vt' k) -> old i \/ i = q.
Proof.
  intros I T. destruct (cases' k I) as [(A & _ & E)|(f & v & _ & H & E)]; rewrite E in T; [left; exists k; auto|].
  apply nt_vertices in T as [->|[->| ->]]; [right; reflexivity|left; apply old_side, H|left; apply old_side, H].
Qed.
Lemma edge_old f v : In f L -> fst (edge (vt f) v) <> q /\ snd (edge (vt f) v) <> q.
Proof. intros I. split; [exact (old_q _ (old_side f (nx v) I))|exact (old_q _ (old_side f (nx (nx v)) I))]. Qed.
Lemma mesh_step : mesh L' vt' nb'.
Proof.
  constructor.
  - exact ND.
  - intros k I. destruct (cases' k I) as [(A & _ & ->)|(f & v & _ & H & ->)]; [exact (m_tri _ _ _ M k A)|].
    destruct H as (If & _). destruct (m_tri _ _ _ M f If) as [B D]. pose proof (fun w => old_q _ (old_side f w If)) as Q. split.
    + intros w. unfold nt. rewrite tget_tset. destruct (three_eqb v w); [exact Bq|apply B].
    + intros w w'. unfold nt. rewrite !tget_tset. destruct (three_eqb v w) eqn:E1, (three_eqb v w') eqn:E2; intros E.
      * destruct v, w, w'; try discriminate; reflexivity.
      * symmetry in E. destruct (Q _ E). * destruct (Q _ E). * apply D. exact E.
  - intros f g i I J T N. destruct (old_vertex' g i J T) as [O| ->].
    + destruct (cases' f I) as [(A & _ & E)|(f1 & v1 & _ & H & E)]; rewrite E in N |- *; [destruct O as (g1 & Ig1 & T1); exact (m_low _ _ _ M f g1 i A Ig1 T1 N)|exact (new_old_low f1 v1 i H O N)].
    + destruct (cases' f I) as [(A & B & E)|(f1 & v1 & _ & H & E)]; rewrite E in N |- *; [exact (not_vis f A B)|exfalso; apply N; apply nt_vertices; left; reflexivity].
  - assert (forall f v w h v1, In h L -> ~ vis h -> hor f v -> edge (nt f v) w = edge (vt h) v1 -> False) as ON.
    { intros f v w h v1 Ih Nh H E. destruct (edge_old h v1 Ih) as [Q1 Q2]. rewrite <- E in Q1, Q2. destruct (three_cases v w) as [->|[->| ->]].
      - rewrite nt_edge in E. apply (m_inj _ _ _ M) in E as [-> _]; [destruct H as (_ & V & _); contradiction|apply H|exact Ih].
      - rewrite nt_edge1 in Q2. exact (Q2 eq_refl). - rewrite nt_edge2 in Q1. exact (Q1 eq_refl). }
    intros f g v w I J E. destruct (cases' f I) as [(A & B & Ef)|(f1 & v1 & S & H & Ef)]; destruct (cases' g J) as [(A' & B' & Eg)|(f2 & v2 & S' & H' & Eg)]; rewrite Ef, Eg in E.
    + exact (m_inj _ _ _ M _ _ _ _ A A' E).
    + exfalso. symmetry in E. exact (ON _ _ _ _ _ A B H' E).
    + exfalso. exact (ON _ _ _ _ _ A' B' H E).
    + assert (forall g0 w0, In g0 L -> tget w0 (vt g0) <> q) as OQ by (intros g0 w0 Ig0; exact (old_q _ (old_side g0 w0 Ig0))).
      pose proof H as (I1 & _). pose proof H' as (I2 & _).
      destruct (three_cases v1 v) as [->|[->| ->]]; destruct (three_cases v2 w) as [->|[->| ->]]; rewrite ?nt_edge, ?nt_edge1, ?nt_edge2 in E.
      * apply (m_inj _ _ _ M) in E as [-> ->]; [|exact I1|exact I2]. split; [exact (slot1 _ _ _ _ S S')|reflexivity].
      * exfalso. injection E as _ E. exact (OQ _ _ I1 E).
      * exfalso. injection E as E _. exact (OQ _ _ I1 E).
      * exfalso. injection E as _ E. symmetry in E. exact (OQ _ _ I2 E).
      * injection E as E. destruct (hor_head _ _ _ _ H H' E) as [-> ->]. split; [exact (slot1 _ _ _ _ S S')|reflexivity].
      * exfalso. injection E as E _. exact (OQ _ _ I1 E).
      * exfalso. injection E as E _. symmetry in E. exact (OQ _ _ I2 E).
      * exfalso. injection E as E _. symmetry in E. exact (OQ _ _ I2 E).
      * injection E as E. destruct (hor_tail _ _ _ _ H H' E) as [-> ->]. split; [exact (slot1 _ _ _ _ S S')|reflexivity].
  - intros k v I. destruct (cases' k I) as [(A & B & E)|(f & v1 & S & H & E)]; rewrite E.
    + destruct (side_facts k v A) as (w & J & Ew & Bk & _). destruct (vis_dec (nb k v)) as [V|V].
      * assert (hor (nb k v) w) as H by (split; [exact J|split; [exact V|rewrite Bk; exact B]]). destruct (slots _ _ H) as (k' & S). destruct (slot _ _ _ S) as (_ & I' & E').
        rewrite (nb_moved k v w k' A B S Ew). split; [exact I'|]. exists w. rewrite E', nt_edge. exact Ew.
      * rewrite (nb_kept k v A B V). destruct (kept _ J V) as [I' E']. split; [exact I'|]. exists w. rewrite E'. exact Ew.
    + pose proof H as (If & _ & N). destruct (three_cases v1 v) as [->|[->| ->]].
      * rewrite (nb_new _ _ _ S). destruct (side_facts f v1 If) as (w & J & Ew & _). destruct (kept _ J N) as [I' E']. split; [exact I'|]. exists w. rewrite E', nt_edge. exact Ew.
      * destruct (hor_next true f v1 H) as (f' & v' & H' & Et). cbn [end_of negb] in Et. destruct (slots _ _ H') as (k' & S'). destruct (slot _ _ _ S') as (_ & I' & E').
        destruct (nb_next _ _ _ _ _ _ S S' (eq_sym Et)) as [-> _]. split; [exact I'|]. exists (nx (nx v')). rewrite E', nt_edge2, nt_edge1. unfold rev2. cbn [fst snd]. congruence.
      * destruct (hor_next false f v1 H) as (f' & v' & H' & Et). cbn [end_of negb] in Et. destruct (slots _ _ H') as (k' & S'). destruct (slot _ _ _ S') as (_ & I' & E').
        destruct (nb_next _ _ _ _ _ _ S' S Et) as [_ ->]. split; [exact I'|]. exists (nx v'). rewrite E', nt_edge2, nt_edge1. unfold rev2. cbn [fst snd]. congruence.
  - intros k I. destruct (cases' k I) as [(A & B & E)|(f & v & S & H & E)].
    + destruct (side_facts k I0 A) as (w & J & Ew & Bk & _ & _ & X & _). destruct (vis_dec (nb k I0)) as [V|V].
      * assert (hor (nb k I0) w) as H by (split; [exact J|split; [exact V|rewrite Bk; exact B]]). destruct (slots _ _ H) as (k' & S). destruct (slot _ _ _ S) as (_ & I' & E').
        exists k', q. rewrite E, E'. split; [exact I'|]. split; [apply nt_vertices; left; reflexivity|exact (Nq k A)].
      * destruct (kept _ J V) as [I' E']. exists (nb k I0), (tget w (vt (nb k I0))). rewrite E, E'. split; [exact I'|]. split; [eexists; reflexivity|exact X].
    + pose proof H as (If & _ & N). destruct (side_facts f v If) as (w & J & Ew & _ & _ & _ & X & _). destruct (kept _ J N) as [I' E'].
      exists (nb f v), (tget w (vt (nb f v))). rewrite E, E'. split; [exact I'|]. split; [eexists; reflexivity|].
      intros C. apply nt_vertices in C as [C|[C|C]]; [exact (old_q _ (old_side _ w J) C)|apply X; rewrite C; eexists; reflexivity|apply X; rewrite C; eexists; reflexivity].
  - destruct (some_hidden F0 IF VF) as (f & I & N). destruct (kept f I N) as [I' _]. destruct L'; [destruct I'|discriminate].
Qed.

(** points inside stay inside *)
Lemma inside_stays x : (forall f, In f L -> VT (vt f) x <= 0) -> forall k, In k L' -> VT (vt' k) x <= 0.
Proof.
  intros H k I. destruct (cases' k I) as [(A & _ & ->)|(f & v & _ & Hh & ->)]; [apply H; exact A|].
  pose proof Hh as (If & _). destruct (m_nbr _ _ _ M f v If) as [J _]. exact (proj1 (new_low f v x Hh (H f If) (H _ J))).
Qed.
Lemma inside_strict x : (forall f, In f L -> VT (vt f) x < 0) -> forall k, In k L' -> VT (vt' k) x < 0.
Proof.
  intros H k I. destruct (cases' k I) as [(A & _ & ->)|(f & v & _ & Hh & ->)]; [apply H; exact A|]. exact (new_strict f v x Hh H).
Qed.
(** a point that saw one of the facets that are gone is inside or sees a new one *)
Lemma outside_sees x F : (forall y K, In K L' -> VT (vt' K) y = 0 -> (forall v, VT (vt' (nb' K v)) y <= 0) ->
    exists l0 l1 l2, l0 + l1 + l2 = 1 /\ 0 <= l0 /\ 0 <= l1 /\ 0 <= l2 /\ y = tbary l0 l1 l2 (vt' K)) ->
  In F L -> vis F -> 0 < VT (vt F) x -> (forall f v, hor f v -> VT (nt f v) x <= 0) -> forall k, In k L' -> VT (vt' k) x <= 0.
Proof.
  intros IT I V A H k0 I0'. apply Rnot_lt_le. intros Ax.
  assert (forall k, In k L' -> VT (vt' k) (cent F) < 0) as C.
  { intros k Ik. destruct (cases' k Ik) as [(B & N & ->)|(f & v & _ & Hh & ->)]; [apply cent_other; [exact I|exact B|intros ->; contradiction]|].
    pose proof Hh as (If & _). apply cent_low.
    - intros i Ti. destruct (InT_dec i (nt f v)) as [Y|Y]; [rewrite (VT_at _ _ Y); lra|left; apply new_old_low; [exact Hh|exists F; auto|exact Y]].
    - destruct (m_tri _ _ _ M F I) as [_ D].
      assert (exists w, ~ InT (tget w (vt F)) (nt f v)) as [w Hw].
      { pose proof (fun w => old_q _ (old_side F w I)) as Q.
        destruct (InT_dec (tget I0 (vt F)) (nt f v)) as [X|X]; [|exists I0; exact X]. destruct (InT_dec (tget I1 (vt F)) (nt f v)) as [Y|Y]; [|exists I1; exact Y].
        destruct (InT_dec (tget I2 (vt F)) (nt f v)) as [Z|Z]; [|exists I2; exact Z]. exfalso. pose proof (Q I0). pose proof (Q I1). pose proof (Q I2).
        pose proof (D I0 I1) as D1. pose proof (D I0 I2) as D2. pose proof (D I1 I2) as D3. apply nt_vertices in X, Y, Z.
        assert (tget I0 (vt F) <> tget I1 (vt F)) by (intros T; specialize (D1 T); discriminate). assert (tget I0 (vt F) <> tget I2 (vt F)) by (intros T; specialize (D2 T); discriminate).
        assert (tget I1 (vt F) <> tget I2 (vt F)) by (intros T; specialize (D3 T); discriminate). intuition congruence. }
      exists (tget w (vt F)). split; [eexists; reflexivity|]. apply new_old_low; [exact Hh|apply old_side; exact I|exact Hw]. }
  destruct (exit_point (fun k => VT (vt' k) (cent F)) (fun k => VT (vt' k) x) L') as (K & IK & BK & t & T & Z & All); [intros k Ik; left; apply C; exact Ik|exists k0; auto|].
  set (y := mix t (cent F) x). assert (VT (vt' K) y = 0) as Zy by (unfold y; rewrite VT_mix; exact Z).
  assert (forall k, In k L' -> VT (vt' k) y <= 0) as Ay by (intros k Ik; unfold y; rewrite VT_mix; apply All; exact Ik).
  destruct (cases' K IK) as [(B & N & E)|(f & v & _ & Hh & E)]; [|rewrite E in BK; specialize (H f v Hh); lra].
  assert (0 < t) as T0. { destruct T as [[T|T] _]; [exact T|]. subst t. specialize (C K IK). lra. }
  pose proof mesh_step as M'.
  destruct (IT y K IK Zy) as (l0 & l1 & l2 & El & P0 & P1 & P2 & Ey); [intros v; apply Ay; exact (proj1 (m_nbr _ _ _ M' K v IK))|].
  assert (VT (vt F) y <= 0) as Q.
  { rewrite Ey, E. apply triangle_low; try assumption. intros i Ti. exact (low_le F K i I B Ti). }
  unfold y in Q. rewrite VT_mix, cent_self in Q. nra.
Qed.
End Step.
End Add.
End One.
End Mesh.
