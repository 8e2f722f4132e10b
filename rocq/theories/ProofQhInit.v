(** quickhull: the first simplex is a hull of its four points. *)
From Coq Require Import List Arith Bool ZArith Reals Lra Lia Permutation.
From Verif Require Import Base LoopFacts ModelPlane ModelQuickhull SpecQuickhull ProofQhGeo ProofQhMesh ProofQhRidge ProofQhWalk ProofQhStep.
Import ListNotations.
Local Open Scope R_scope.

Definition app_f (h : qhull) (more : list facet) : qhull := QH (facets h ++ more) (removed h) (ranking h) (outside h).
Lemma set_nth_app {A} (l more : list A) k x : (k < length l)%nat -> set_nth (l ++ more) k x = (l' <- set_nth l k x ;; Ok (l' ++ more)).
Proof.
  revert k. induction l as [|y l IH]; intros k B; cbn in B; [lia|]. destruct k; cbn; [reflexivity|]. rewrite IH by lia. destruct (set_nth l k x); reflexivity.
Qed.
Lemma rank_facet_app eps pts k h more : (k < length (facets h))%nat ->
  rank_facet eps pts k (app_f h more) = (h' <- rank_facet eps pts k h ;; Ok (app_f h' more)).
Proof.
  intros B. unfold rank_facet. cbn [app_f facets outside removed ranking]. rewrite (get_fat (facets h) k B). cbn [bind].
  rewrite (get_ok (facets h ++ more) k fdflt) by (rewrite app_length; lia). rewrite app_nth1 by exact B. cbn [bind]. fold (fat (facets h) k).
  destruct (partition_loop _ _ _ _ _ _ _ _) as [[[[d o] c] keep]|e|]; cbn [bind]; try reflexivity.
  rewrite set_nth_app by exact B. destruct (set_nth (facets h) k _) as [l|e|]; reflexivity.
Qed.
Lemma rank_facet_len eps pts k h h' : rank_facet eps pts k h = Ok h' -> length (facets h') = length (facets h).
Proof.
  unfold rank_facet. intros E. destruct (get (facets h) k) as [f|e|] eqn:G; try discriminate. cbn [bind] in E. destruct (get_inv _ _ fdflt _ G) as [B _].
  destruct (partition_loop _ _ _ _ _ _ _ _) as [[[[d o] c] keep]|e|]; cbn [bind] in E; try discriminate.
  destruct (fat_set_nth (facets h) k (with_lists f o c) B) as (l & E' & Len & _). rewrite E' in E. cbn [bind] in E. injection E as <-. exact Len.
Qed.
Lemma simplex_loop_all eps pts a b c d swap : forall fs fcs, Forall2 (fun f fc => set_plane eps pts (simplex_facet a b c d f swap) = Ok fc) fs fcs -> forall h,
  simplex_loop eps pts a b c d swap fs h = rank_all eps pts (seq (length (facets h)) (length fs)) (app_f h fcs).
Proof.
  induction 1 as [|f fc fs fcs E F IH]; intros h; [cbn; unfold app_f; rewrite app_nil_r; destruct h; reflexivity|].
  cbn [simplex_loop length seq rank_all]. rewrite E. cbn [bind]. change (QH (facets h ++ [fc]) (removed h) (ranking h) (outside h)) with (app_f h [fc]).
  replace (app_f h (fc :: fcs)) with (app_f (app_f h [fc]) fcs) by (unfold app_f; cbn; rewrite <- app_assoc; reflexivity).
  rewrite (rank_facet_app _ _ _ (app_f h [fc]) fcs) by (cbn; rewrite app_length; cbn; lia).
  destruct (rank_facet eps pts (length (facets h)) (app_f h [fc])) as [h1|e|] eqn:R; cbn [bind]; try reflexivity.
  apply rank_facet_len in R. cbn in R. rewrite app_length in R. cbn in R. rewrite IH, R. rewrite Nat.add_1_r. reflexivity.
Qed.

Section Init.
Variables (eps : R) (pts : list v3r).
Let n := length pts.
Let P := pt pts.
Hypothesis Eps : 0 <= eps.
Variable Lv : nat -> R.
Hypothesis Lv0 : 0 <= Lv 0%nat.

Variables (a b c d : nat) (swap : bool).
Hypothesis Ba : (a < n)%nat.
Hypothesis Bb : (b < n)%nat.
Hypothesis Bc : (c < n)%nat.
Hypothesis Bd : (d < n)%nat.
Hypothesis ND : NoDup [a; b; c; d].
Hypothesis Sgn : if swap then 0 < vol (P a) (P b) (P c) (P d) else vol (P a) (P b) (P c) (P d) < 0.
Let sf (k : nat) := simplex_facet a b c d k swap.
Lemma distinct4 : a <> b /\ a <> c /\ a <> d /\ b <> c /\ b <> d /\ c <> d.
Proof.
  inversion ND as [|? ? Q1 ND1]; subst. inversion ND1 as [|? ? Q2 ND2]; subst. inversion ND2 as [|? ? Q3 ND3]; subst. cbn in Q1, Q2, Q3. repeat split; intros X; subst; tauto.
Qed.
Definition middle : v3r := let m f := (f (P a) + f (P b) + f (P c) + f (P d)) / 4 in RV (m rx) (m ry) (m rz).
Hypothesis Planes : forall t, facet_ok pts middle t -> exists nd, plane_of eps pts t = Ok nd /\ forall i, (i < n)%nat -> sided eps pts t nd i.
Lemma sf_good k : In k [0; 1; 2; 3]%nat -> good_tri n (fvert (sf k)).
Proof.
  destruct distinct4 as (D1 & D2 & D3 & D4 & D5 & D6). unfold sf.
  intros [<-|[<-|[<-|[<-|[]]]]]; destruct swap; cbn; (split; [intros []; cbn; assumption|intros [] []; cbn; intros X; try reflexivity; exfalso; congruence]).
Qed.
Lemma sf_low f g i : In f [0; 1; 2; 3]%nat -> In g [0; 1; 2; 3]%nat -> InT i (fvert (sf g)) -> ~ InT i (fvert (sf f)) -> VT P (fvert (sf f)) (P i) < 0.
Proof.
  intros If Ig [v E] N.
  assert (i = a \/ i = b \/ i = c \/ i = d) as C4 by (unfold sf in E; repeat destruct Ig as [<-|Ig]; try contradiction; destruct swap, v; cbn in E; subst i; auto).
  unfold sf in *. clear E Ig. repeat destruct If as [<-|If]; try contradiction; destruct swap; cbn in *;
  (destruct C4 as [-> | [-> | [-> | ->]]]; try (exfalso; apply N; first [exists I0; reflexivity|exists I1; reflexivity|exists I2; reflexivity]; fail));
  clear N; unfold VT, vol, rvdot, rvcross, rvsub in *; cbn [t0 t1 t2 rx ry rz] in *; lra.
Qed.
Lemma sf_mid f : In f [0; 1; 2; 3]%nat -> VT P (fvert (sf f)) middle < 0.
Proof.
  intros If. unfold sf in *. repeat destruct If as [<-|If]; try contradiction; destruct swap; cbn in *;
  unfold VT, middle, vol, rvdot, rvcross, rvsub in *; cbn [t0 t1 t2 rx ry rz] in *; lra.
Qed.
Lemma sf_ok f : In f [0; 1; 2; 3]%nat -> facet_ok pts middle (fvert (sf f)).
Proof. intros I. split; [exact (sf_good f I)|exact (sf_mid f I)]. Qed.
Lemma sf_corner f v : In f [0; 1; 2; 3]%nat -> In (tget v (fvert (sf f))) [a; b; c; d].
Proof. intros If. unfold sf. repeat destruct If as [<-|If]; try contradiction; destruct swap, v; cbn; auto. Qed.
Lemma corner_inj i j : In i [a; b; c; d] -> In j [a; b; c; d] -> P i = P j -> i = j.
Proof.
  intros Ii Ij X. assert (vol (P a) (P b) (P c) (P d) <> 0) as NZ by (destruct swap; lra).
  repeat destruct Ii as [<-|Ii]; try contradiction; repeat destruct Ij as [<-|Ij]; try contradiction; try reflexivity; exfalso; apply NZ;
    unfold vol, rvdot, rvcross, rvsub; rewrite X; cbn [rx ry rz]; ring.
Qed.
Lemma simplex_mesh : mesh P n [0; 1; 2; 3]%nat (fun k => fvert (sf k)) (fun k v => tget v (fnbr (sf k))).
Proof.
  destruct distinct4 as (D1 & D2 & D3 & D4 & D5 & D6). split.
  - repeat constructor; cbn; intuition discriminate.
  - exact sf_good.
  - exact sf_low.
  - intros f g v w If Ig E. unfold sf in E. repeat destruct If as [<-|If]; try contradiction; repeat destruct Ig as [<-|Ig]; try contradiction; destruct swap, v, w; unfold edge in E; cbn in E; first [split; reflexivity|exfalso; congruence].
  - intros f v If. unfold sf. repeat destruct If as [<-|If]; try contradiction; destruct swap, v; unfold edge, rev2; cbn; (split; [auto|]); first [exists I0; reflexivity|exists I1; reflexivity|exists I2; reflexivity].
  - intros f If. unfold sf. repeat destruct If as [<-|If]; try contradiction; destruct swap.
    all: first [(exists 1%nat, a; cbn; (split; [auto|split; [first [exists I0; reflexivity|exists I1; reflexivity|exists I2; reflexivity]|intros [[] X]; cbn in X; congruence]]))|(exists 0%nat, b; cbn; (split; [auto|split; [first [exists I0; reflexivity|exists I1; reflexivity|exists I2; reflexivity]|intros [[] X]; cbn in X; congruence]]))|(exists 0%nat, c; cbn; (split; [auto|split; [first [exists I0; reflexivity|exists I1; reflexivity|exists I2; reflexivity]|intros [[] X]; cbn in X; congruence]]))|(exists 0%nat, d; cbn; (split; [auto|split; [first [exists I0; reflexivity|exists I1; reflexivity|exists I2; reflexivity]|intros [[] X]; cbn in X; congruence]]))].
  - discriminate.
Qed.

(** the facets with their planes *)
Lemma simplex_planes : exists fcs, Forall2 (fun f fc => set_plane eps pts (sf f) = Ok fc) [0; 1; 2; 3]%nat fcs /\ length fcs = 4%nat /\
  forall k, In k [0; 1; 2; 3]%nat -> let fc := fat fcs k in fvert fc = fvert (sf k) /\ fnbr fc = fnbr (sf k) /\ fout fc = [] /\ plane_of eps pts (fvert fc) = Ok (fnorm fc, fD fc).
Proof.
  assert (forall k, In k [0; 1; 2; 3]%nat -> exists fc, set_plane eps pts (sf k) = Ok fc /\ fvert fc = fvert (sf k) /\ fnbr fc = fnbr (sf k) /\ fout fc = [] /\ plane_of eps pts (fvert fc) = Ok (fnorm fc, fD fc)) as H.
  { intros k Ik. destruct (Planes _ (sf_ok k Ik)) as ([nn dd] & E & _). eexists. split; [apply (set_plane_of _ _ _ nn dd); exact E|]. cbn [fvert fnbr fout fnorm fD]. split; [reflexivity|]. split; [reflexivity|].
    split; [|exact E]. unfold sf. clear E. repeat destruct Ik as [<-|Ik]; try contradiction; destruct swap; reflexivity. }
  destruct (H 0%nat) as (f0 & E0 & H0); [cbn; auto|]. destruct (H 1%nat) as (f1 & E1 & H1); [cbn; auto|]. destruct (H 2%nat) as (f2 & E2 & H2); [cbn; auto|]. destruct (H 3%nat) as (f3 & E3 & H3); [cbn; auto|].
  exists [f0; f1; f2; f3]. split; [repeat constructor; assumption|]. split; [reflexivity|]. intros k Ik. repeat destruct Ik as [<-|Ik]; try contradiction; assumption.
Qed.
Lemma simplex_hull out : (forall i, (i < n)%nat <-> In i ([a; b; c; d] ++ out)) ->
  exists h, simplex_loop eps pts a b c d swap [0; 1; 2; 3]%nat (QH [] [] [] out) = Ok h /\
    hull_ok eps pts middle Lv 0 (fun _ => 0) (QH (facets h) (removed h) (ranking h) []) [0; 1; 2; 3]%nat /\ (sumout (facets h) [0; 1; 2; 3]%nat <= length out)%nat /\
    length (facets h) = 4%nat /\ forall k, In k [0; 1; 2; 3]%nat -> fvert (fat (facets h) k) = fvert (sf k).
Proof.
  intros BO. destruct simplex_planes as (fcs & F & Len & PF). rewrite (simplex_loop_all _ _ _ _ _ _ _ _ _ F). cbn [facets length seq]. unfold app_f. cbn [facets removed ranking outside app].
  destruct (rank_all_ok eps pts Eps middle Planes [0; 1; 2; 3]%nat (QH fcs [] [] out)) as (h & -> & L' & R' & SM & _ & OI & OC & RK & SU).
  - repeat constructor; cbn; intuition discriminate.
  - cbn [outside]. intros i I. apply BO, in_or_app. right. exact I.
  - intros k Ik. cbn [facets]. destruct (PF k Ik) as (V & _ & O & PL). split; [rewrite Len; cbn in Ik; lia|]. split; [rewrite V; exact (sf_ok k Ik)|]. split; [exact PL|exact O].
  - cbn [facets removed ranking outside] in *. exists h. assert (forall k, In k [0; 1; 2; 3]%nat -> vtf (facets h) k = fvert (sf k)) as EV by (intros k Ik; unfold vtf; destruct (SM k) as (X & _); rewrite X; apply (PF k Ik)).
    split; [reflexivity|]. split; [|split; [exact SU|split; [rewrite L'; exact Len|exact EV]]].
    assert (forall k, (k < 4)%nat <-> In k [0; 1; 2; 3]%nat) as I4 by (intros k; cbn; lia).
    assert (mesh P n [0; 1; 2; 3]%nat (vtf (facets h)) (nbf (facets h))) as MH.
    { pose proof simplex_mesh as [m1 m2 m3 m4 m5 m6 m7].
      assert (forall k v, In k [0; 1; 2; 3]%nat -> nbf (facets h) k v = tget v (fnbr (sf k))) as EN by (intros k v Ik; unfold nbf; destruct (SM k) as (_ & X & _); rewrite X; destruct (PF k Ik) as (_ & Y & _); rewrite Y; reflexivity).
      split; [exact m1| | | | | |exact m7].
      - intros f If. rewrite EV by exact If. exact (m2 f If).
      - intros f g i If Ig. rewrite !EV by assumption. apply m3; assumption.
      - intros f g v w If Ig. rewrite !EV by assumption. apply m4; assumption.
      - intros f v If. destruct (m5 f v If) as [J (w & E)]. rewrite EN by exact If. split; [exact J|]. exists w. rewrite !EV by assumption. exact E.
      - intros f If. destruct (m6 f If) as (g & i & Ig & A & B). exists g, i. rewrite !EV by assumption. auto. }
    split; cbn [facets removed ranking outside].
    + apply (mesh_points pts P); [exact MH|]. intros k v _. unfold pull, mix. fold P. destruct (P (tget v (vtf (facets h) k))) as [p0 p1 p2]. cbn [rx ry rz]. f_equal; ring.
    + intros k Ik. rewrite EV by exact Ik. exact (sf_mid k Ik).
    + intros k v _. lra.
    + intros k k' v v' Ik Ik'. rewrite !EV by assumption. apply corner_inj; apply sf_corner; assumption.
    + intros k Ik. rewrite EV by exact Ik. destruct (SM k) as (_ & _ & X & Y). rewrite X, Y. destruct (PF k Ik) as (V & _ & _ & PL). rewrite <- V. exact PL.
    + intros k. rewrite L', Len, R'. rewrite I4. cbn. tauto.
    + intros k _. rewrite R'. intros [].
    + rewrite R'. constructor.
    + intros k. rewrite R'. intros [].
    + intros k i Ik I. destruct (OI k i Ik I) as [A B]. split; [apply BO, in_or_app; right; exact A|]. rewrite EV by exact Ik. destruct (PF k Ik) as (V & _). rewrite <- V. exact B.
    + intros i Bi. apply BO, in_app_iff in Bi as [Bi|Bi].
      * right. intros k Ik. rewrite EV by exact Ik. destruct (InT_dec i (fvert (sf k))) as [J|J]; [rewrite (VT_vertex pts _ _ J); lra|]. apply Rlt_le.
        assert (exists g, In g [0; 1; 2; 3]%nat /\ InT i (fvert (sf g))) as (g & Ig & Jg).
        { unfold sf. destruct Bi as [<-|[<-|[<-|[<-|[]]]]]; [exists 1%nat|exists 0%nat|exists 0%nat|exists 0%nat]; (split; [cbn; auto|]); destruct swap; cbn; first [exists I0; reflexivity|exists I1; reflexivity|exists I2; reflexivity]. }
        exact (sf_low k g i Ik Ig Jg J).
      * destruct (OC i Bi) as [A|A]; [left; exact A|right]. intros k Ik. rewrite EV by exact Ik. destruct (PF k Ik) as (V & _). specialize (A k Ik). rewrite V in A. apply Rnot_lt_le. exact A.
    + intros k. rewrite RK. cbn [map In]. tauto.
    + reflexivity.
Qed.
End Init.
