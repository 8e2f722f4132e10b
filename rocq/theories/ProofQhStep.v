(** quickhull: one pass of the main loop, and the loop. *)
From Coq Require Import List Arith Bool ZArith Reals Lra Lia Permutation.
From Verif Require Import Base LoopFacts ModelPlane ModelQuickhull SpecQuickhull ProofQhGeo ProofQhMesh ProofQhRidge ProofQhWalk.
Import ListNotations.
Local Open Scope R_scope.

Section Step.
Variables (eps : R) (pts : list v3r).
Let n := length pts.
Let P := pt pts.
Hypothesis Eps : 0 <= eps.
(** an inner point, and how far a vertex is moved towards it: the surface of the
    moved vertices is strictly convex *)
Variables (cen : v3r) (Lv : nat -> R) (top : nat).
Definition facet_ok (t : tri nat) : Prop := good_tri n t /\ VT P t cen < 0.
Definition pull (dl : nat -> R) (i : nat) : v3r := mix (dl i) (P i) cen.
Hypothesis Lv0 : forall j, (j <= top)%nat -> 0 <= Lv j < 1.
Hypothesis LvS : forall j, (S j <= top)%nat -> Lv j <= Lv (S j).
Hypothesis Pos : forall j dl t x e, (j <= top)%nat -> facet_ok t -> (forall v, 0 <= dl (tget v t) <= Lv j) -> (x < n)%nat -> 0 <= e <= Lv j ->
  0 < VT P t (P x) -> 0 < VT (pull dl) t (mix e (P x) cen).
Hypothesis Neg : forall j dl t x, (S j <= top)%nat -> facet_ok t -> (forall v, 0 <= dl (tget v t) <= Lv j) -> (x < n)%nat ->
  VT P t (P x) <= 0 -> VT (pull dl) t (mix (Lv (S j)) (P x) cen) < 0.
(** the planes are computed well enough to tell the sides *)
Definition sided (t : tri nat) (nd : v3r * R) (i : nat) : Prop :=
  let d := distance (Facet t t [] [] (fst nd) (snd nd)) (P i) in
  (eps < d <-> 0 < VT P t (P i)) /\ (0 < d <-> 0 < VT P t (P i)).
Hypothesis Planes : forall t, facet_ok t -> exists nd, plane_of eps pts t = Ok nd /\ forall i, (i < n)%nat -> sided t nd i.

Lemma sided_at f i : facet_ok (fvert f) -> plane_of eps pts (fvert f) = Ok (fnorm f, fD f) -> (i < n)%nat ->
  (eps < distance f (P i) <-> 0 < VT P (fvert f) (P i)) /\ (0 < distance f (P i) <-> 0 < VT P (fvert f) (P i)).
Proof.
  intros G PL B. destruct (Planes _ G) as (nd & E & H). rewrite PL in E. injection E as <-. exact (H i B).
Qed.

(** ** Partitioning *)
Lemma partition_ok f : facet_ok (fvert f) -> plane_of eps pts (fvert f) = Ok (fnorm f, fD f) -> forall l dist o c keep, (forall i, In i l -> (i < n)%nat) ->
  exists d' o' c' keep', partition_loop eps pts f l dist o c keep = Ok (d', o', c', keep') /\
    (forall i, In i o' <-> In i o \/ (In i l /\ 0 < VT P (fvert f) (P i))) /\
    (forall i, In i keep' <-> In i keep \/ (In i l /\ ~ 0 < VT P (fvert f) (P i))) /\
    (length o' + length keep' = length o + length keep + length l)%nat /\
    (dist <= d' /\ ((forall i, In i l -> ~ 0 < VT P (fvert f) (P i)) -> d' = dist) /\ ((exists i, In i l /\ 0 < VT P (fvert f) (P i)) -> eps < d')).
Proof.
  intros G PL. induction l as [|i l IH]; intros dist o c keep B; cbn [partition_loop].
  - exists dist, o, c, keep. split; [reflexivity|]. split; [intros i; cbn; tauto|]. split; [intros i; cbn; tauto|]. split; [cbn [length]; lia|]. split; [lra|]. split; [reflexivity|intros (i & [] & _)].
  - assert (i < n)%nat as Bi by (apply B; left; reflexivity). rewrite (get_ok pts i (RV 0 0 0) Bi). cbn [bind]. fold (pt pts i). fold P.
    destruct (sided_at f i G PL Bi) as [S1 _].
    assert (forall j, In j l -> (j < n)%nat) as B' by (intros j H; apply B; right; exact H).
    destruct (Rlt_dec eps (distance f (P i))) as [D|D].
    + assert (0 < VT P (fvert f) (P i)) as V by (apply S1; exact D).
      destruct (Rlt_dec dist (distance f (P i))) as [D2|D2].
      * destruct (IH (distance f (P i)) (i :: o) c keep B') as (d' & o' & c' & k' & E & A1 & A2 & A3 & A4 & A5 & A6). exists d', o', c', k'. split; [exact E|].
        split; [intros j; rewrite A1; cbn [In]; split; [intros [[<-|H]|[H H2]]; tauto|intros [H|[[<-|H] H2]]; tauto]|].
        split; [intros j; rewrite A2; cbn [In]; split; [tauto|intros [H|[[<-|H] H2]]; tauto]|]. split; [cbn [length] in *; lia|]. split; [lra|]. split.
        -- intros H. exfalso. apply (H i); [left; reflexivity|exact V].
        -- intros _. lra.
      * destruct (IH dist (o ++ [i]) c keep B') as (d' & o' & c' & k' & E & A1 & A2 & A3 & A4 & A5 & A6). exists d', o', c', k'. split; [exact E|].
        split; [intros j; rewrite A1, in_app_iff; cbn [In]; split; [intros [[H|[<-|[]]]|[H H2]]; tauto|intros [H|[[<-|H] H2]]; tauto]|].
        split; [intros j; rewrite A2; cbn [In]; split; [tauto|intros [H|[[<-|H] H2]]; tauto]|]. split; [rewrite app_length in A3; cbn [length] in *; lia|]. split; [lra|]. split.
        -- intros H. exfalso. apply (H i); [left; reflexivity|exact V].
        -- intros _. lra.
    + assert (~ 0 < VT P (fvert f) (P i)) as V by (intros H; apply D, S1, H).
      assert (forall c1, exists d' o' c' keep', partition_loop eps pts f l dist o c1 (keep ++ [i]) = Ok (d', o', c', keep') /\
        (forall j, In j o' <-> In j o \/ (In j (i :: l) /\ 0 < VT P (fvert f) (P j))) /\
        (forall j, In j keep' <-> In j keep \/ (In j (i :: l) /\ ~ 0 < VT P (fvert f) (P j))) /\
        (length o' + length keep' = length o + length keep + length (i :: l))%nat /\
        (dist <= d' /\ ((forall j, In j (i :: l) -> ~ 0 < VT P (fvert f) (P j)) -> d' = dist) /\ ((exists j, In j (i :: l) /\ 0 < VT P (fvert f) (P j)) -> eps < d'))) as K.
      { intros c1. destruct (IH dist o c1 (keep ++ [i]) B') as (d' & o' & c' & k' & E & A1 & A2 & A3 & A4 & A5 & A6). exists d', o', c', k'. split; [exact E|].
        split; [intros j; rewrite A1; cbn [In]; split; [tauto|intros [H|[[<-|H] H2]]; tauto]|].
        split; [intros j; rewrite A2, in_app_iff; cbn [In]; split; [intros [[H|[<-|[]]]|[H H2]]; tauto|intros [H|[[<-|H] H2]]; tauto]|].
        split; [rewrite app_length in A3; cbn [length] in *; lia|]. split; [lra|]. split.
        - intros H. apply A5. intros j Hj. apply H. right. exact Hj.
        - intros (j & [<-|Hj] & Vj); [contradiction|]. apply A6. exists j. split; assumption. }
      destruct (Rlt_dec (distance f (P i)) (- eps)); apply K.
Qed.
Lemma insert_rank_in d k l x : In x (insert_rank d k l) <-> x = (d, k) \/ In x l.
Proof.
  induction l as [|[e g] l IH]; cbn [insert_rank]; [cbn; split; intros [H|[]]; left; congruence|].
  destruct (Rlt_dec d e); cbn [In]; [split; intros [H|H]; auto|]. rewrite IH. split; [intros [H|[H|H]]; auto|intros [H|[H|H]]; auto].
Qed.
Lemma insert_rank_snd d k l j : In j (map snd (insert_rank d k l)) <-> j = k \/ In j (map snd l).
Proof.
  rewrite !in_map_iff. split.
  - intros ([e g] & <- & H). apply insert_rank_in in H as [H|H]; [injection H as -> ->; left; reflexivity|right; exists (e, g); split; [reflexivity|exact H]].
  - intros [->|(x & <- & H)]; [exists (d, k); split; [reflexivity|apply insert_rank_in; left; reflexivity]|exists x; split; [reflexivity|apply insert_rank_in; right; exact H]].
Qed.
Definition sumout (fs : list facet) (L : list nat) : nat := list_sum (map (fun k => length (fout (fat fs k))) L).
Lemma sumout_cons fs k L : sumout fs (k :: L) = (length (fout (fat fs k)) + sumout fs L)%nat. Proof. reflexivity. Qed.
Lemma sumout_app fs L L' : sumout fs (L ++ L') = (sumout fs L + sumout fs L')%nat.
Proof. unfold sumout. rewrite map_app, list_sum_app. reflexivity. Qed.
Lemma sumout_same fs fs' L : (forall k, In k L -> fout (fat fs k) = fout (fat fs' k)) -> sumout fs L = sumout fs' L.
Proof. intros H. unfold sumout. f_equal. apply map_ext_in. intros k I. rewrite (H k I). reflexivity. Qed.
Lemma sumout_perm fs L L' : Permutation L L' -> sumout fs L = sumout fs L'.
Proof. induction 1; rewrite ?sumout_cons in *; lia. Qed.
Lemma rank_all_ok ks : forall h, NoDup ks -> (forall i, In i (outside h) -> (i < n)%nat) ->
  (forall k, In k ks -> let f := fat (facets h) k in (k < length (facets h))%nat /\ facet_ok (fvert f) /\ plane_of eps pts (fvert f) = Ok (fnorm f, fD f) /\ fout f = []) ->
  exists h', rank_all eps pts ks h = Ok h' /\ length (facets h') = length (facets h) /\ removed h' = removed h /\
    (forall j, let f := fat (facets h) j in let g := fat (facets h') j in fvert g = fvert f /\ fnbr g = fnbr f /\ fnorm g = fnorm f /\ fD g = fD f) /\
    (forall j, ~ In j ks -> fout (fat (facets h') j) = fout (fat (facets h) j)) /\
    (forall k i, In k ks -> In i (fout (fat (facets h') k)) -> In i (outside h) /\ 0 < VT P (fvert (fat (facets h) k)) (P i)) /\
    (forall i, In i (outside h) -> (exists k, In k ks /\ In i (fout (fat (facets h') k))) \/ (forall k, In k ks -> ~ 0 < VT P (fvert (fat (facets h) k)) (P i))) /\
    (forall k, In k (map snd (ranking h')) <-> In k (map snd (ranking h)) \/ (In k ks /\ fout (fat (facets h') k) <> [])) /\
    (sumout (facets h') ks <= length (outside h))%nat.
Proof.
  induction ks as [|k ks IH]; intros h ND OB KB; cbn [rank_all].
  - exists h. split; [reflexivity|]. split; [reflexivity|]. split; [reflexivity|]. split; [intros j; repeat split|]. split; [reflexivity|]. split; [intros k i []|].
    split; [intros i _; right; intros k []|]. split; [intros k; cbn; tauto|]. cbn. lia.
  - inversion ND as [|x l NI ND']; subst. destruct (KB k (or_introl eq_refl)) as (Bk & Gk & Pk & Ok_).
    unfold rank_facet. rewrite (get_fat _ k Bk). cbn [bind]. set (f := fat (facets h) k) in *.
    destruct (partition_ok f Gk Pk (outside h) 0 (fout f) (fcop f) [] OB) as (d & o & c & keep & -> & A1 & A2 & A3 & A4 & A5 & A6). cbn [bind].
    destruct (fat_set_nth (facets h) k (with_lists f o c) Bk) as (fs1 & -> & Len1 & F1). cbn [bind].
    rewrite Ok_ in A1, A3.
    set (h1 := QH fs1 (removed h) (if Rlt_dec eps d then insert_rank d k (ranking h) else ranking h) keep).
    assert (forall j, let f := fat (facets h) j in let g := fat fs1 j in fvert g = fvert f /\ fnbr g = fnbr f /\ fnorm g = fnorm f /\ fD g = fD f) as SM.
    { intros j. cbn zeta. rewrite F1. destruct (Nat.eqb_spec j k) as [->|]; repeat split. }
    assert (forall j, j <> k -> fat fs1 j = fat (facets h) j) as Fo by (intros j Hj; rewrite F1; destruct (Nat.eqb_spec j k); [contradiction|reflexivity]).
    assert (fout (fat fs1 k) = o) as Ek by (rewrite F1, Nat.eqb_refl; reflexivity).
    destruct (IH h1) as (h' & -> & Len' & Rem' & SM' & Out' & In' & Cov' & Rk' & Sum').
    + exact ND'.
    + intros i H. apply A2 in H as [[]|[H _]]. exact (OB _ H).
    + intros j H. assert (j <> k) as Nj by (intros ->; contradiction). cbn [h1 facets]. rewrite (Fo j Nj), Len1. apply KB. right. exact H.
    + exists h'. cbn [h1 facets removed ranking outside] in *. split; [reflexivity|]. split; [lia|]. split; [exact Rem'|].
      split; [intros j; destruct (SM j) as (-> & -> & -> & ->) || idtac; specialize (SM j); specialize (SM' j); cbn zeta in *; destruct SM as (S1 & S2 & S3 & S4), SM' as (S5 & S6 & S7 & S8); repeat split; congruence|].
      pose proof (Out' k NI) as Ok'. rewrite Ek in Ok'.
      split; [intros j H; rewrite Out' by (intros X; apply H; right; exact X); rewrite Fo; [reflexivity|intros ->; apply H; left; reflexivity]|].
      split.
      { intros j i [<-|H] I.
        - rewrite Ok' in I. apply A1 in I as [[]|[I V]]. split; assumption.
        - destruct (In' j i H I) as [B1 B2]. apply A2 in B1 as [[]|[B1 _]]. split; [exact B1|]. destruct (SM j) as (E & _). rewrite <- E. exact B2. }
      split.
      { intros i I. destruct (Rlt_dec 0 (VT P (fvert f) (P i))) as [V|V].
        - left. exists k. split; [left; reflexivity|]. rewrite Ok'. apply A1. right. split; assumption.
        - destruct (Cov' i) as [(j & J1 & J2)|H]; [apply A2; right; split; assumption|left; exists j; split; [right; exact J1|exact J2]|right].
          intros j [<-|J]; [exact V|]. destruct (SM j) as (E & _). rewrite <- E. exact (H j J). }
      split.
      { intros j. rewrite Rk'.
        assert (In j (map snd (if Rlt_dec eps d then insert_rank d k (ranking h) else ranking h)) <-> In j (map snd (ranking h)) \/ (j = k /\ o <> [])) as X.
        { destruct (Rlt_dec eps d) as [D|D].
          - rewrite insert_rank_snd. split; [|tauto]. intros [->|H]; [|left; exact H]. right. split; [reflexivity|]. intros ->.
            assert (d = 0) as -> by (apply A5; intros i I V; apply (proj2 (A1 i)); right; split; assumption). lra.
          - split; [tauto|]. intros [H|[-> H]]; [exact H|]. exfalso. apply D, A6. destruct o as [|i o]; [congruence|]. exists i.
            destruct (proj1 (A1 i) (or_introl eq_refl)) as [[]|H']. exact H'. }
        rewrite X. cbn [In]. split.
        - intros [[H|[-> H]]|[H H2]]; [left; exact H|right; split; [left; reflexivity|rewrite Ok'; exact H]|right; split; [right; exact H|exact H2]].
        - intros [H|[[<-|H] H2]]; [left; left; exact H|left; right; split; [reflexivity|rewrite <- Ok'; exact H2]|right; split; assumption]. }
      rewrite sumout_cons, Ok'. cbn [length] in A3. lia.
Qed.

(** ** Between two passes *)
Definition vtf (fs : list facet) (k : nat) : tri nat := fvert (fat fs k).
Definition nbf (fs : list facet) (k : nat) (v : three) : nat := tget v (fnbr (fat fs k)).
Record hull_ok (j : nat) (dl : nat -> R) (h : qhull) (L : list nat) : Prop := {
  h_mesh : mesh (pull dl) n L (vtf (facets h)) (nbf (facets h));
  h_c0 : forall k, In k L -> VT P (vtf (facets h) k) cen < 0;
  h_lev : forall k v, In k L -> 0 <= dl (tget v (vtf (facets h) k)) <= Lv j;
  h_inj : forall k k' v v', In k L -> In k' L -> P (tget v (vtf (facets h) k)) = P (tget v' (vtf (facets h) k')) -> tget v (vtf (facets h) k) = tget v' (vtf (facets h) k');
  h_plane : forall k, In k L -> plane_of eps pts (vtf (facets h) k) = Ok (fnorm (fat (facets h) k), fD (fat (facets h) k));
  h_dom : forall k, (k < length (facets h))%nat <-> In k L \/ In k (removed h);
  h_dis : forall k, In k L -> ~ In k (removed h);
  h_remn : NoDup (removed h);
  h_rout : forall k, In k (removed h) -> fout (fat (facets h) k) = [];
  h_fout : forall k i, In k L -> In i (fout (fat (facets h) k)) -> (i < n)%nat /\ 0 < VT P (vtf (facets h) k) (P i);
  h_cover : forall i, (i < n)%nat -> (exists k, In k L /\ In i (fout (fat (facets h) k))) \/ (forall k, In k L -> VT P (vtf (facets h) k) (P i) <= 0);
  h_rank : forall k, In k (map snd (ranking h)) <-> In k L /\ fout (fat (facets h) k) <> [];
  h_out : outside h = [] }.

Lemma VT_vertex t i : InT i t -> VT P t (P i) = 0.
Proof. intros [v <-]. unfold VT. destruct v; cbn [tget]; [apply vol_at_a|apply vol_at_b|apply vol_at_c]. Qed.
Lemma pull_c0 dl t : VT (pull dl) t cen = (1 - dl (t0 t)) * (1 - dl (t1 t)) * (1 - dl (t2 t)) * VT P t cen.
Proof. unfold VT, pull, mix. vols. ring. Qed.
Lemma pull_sign j dl t : (j <= top)%nat -> (forall v, 0 <= dl (tget v t) <= Lv j) -> (VT (pull dl) t cen < 0 <-> VT P t cen < 0).
Proof.
  intros J B. rewrite pull_c0. pose proof (Lv0 j J) as DJ. pose proof (B I0) as B0. pose proof (B I1) as B1. pose proof (B I2) as B2. cbn [tget] in B0, B1, B2.
  assert (0 < (1 - dl (t0 t)) * (1 - dl (t1 t)) * (1 - dl (t2 t))) as X by (repeat apply Rmult_lt_0_compat; lra). set (c := (1 - dl (t0 t)) * (1 - dl (t1 t)) * (1 - dl (t2 t))) in *. clearbody c. split; intros Y; nra.
Qed.
Lemma seen_not_vertex j dl L vt nb f i : (j <= top)%nat -> mesh (pull dl) n L vt nb -> (forall k, In k L -> VT P (vt k) cen < 0) -> (forall k v, In k L -> 0 <= dl (tget v (vt k)) <= Lv j) ->
  In f L -> 0 < VT P (vt f) (P i) -> forall g, In g L -> ~ InT i (vt g).
Proof.
  intros J M C LV If V g Ig I. destruct (InT_dec i (vt f)) as [Z|Z]; [rewrite (VT_vertex _ _ Z) in V; lra|]. pose proof (m_low _ _ _ _ _ M f g i If Ig I Z) as X.
  assert (0 < VT (pull dl) (vt f) (pull dl i)); [|lra]. apply (Pos j); try assumption.
  - split; [exact (m_tri _ _ _ _ _ M f If)|exact (C f If)].
  - intros v. exact (LV f v If).
  - destruct I as [v <-]. apply (m_tri _ _ _ _ _ M g Ig).
  - destruct I as [v <-]. exact (LV g v Ig).
Qed.
Lemma mesh_points Pa Pb L vt nb : mesh Pa n L vt nb -> (forall k v, In k L -> Pa (tget v (vt k)) = Pb (tget v (vt k))) -> mesh Pb n L vt nb.
Proof.
  intros M E. split.
  - exact (m_nodup _ _ _ _ _ M).
  - exact (m_tri _ _ _ _ _ M).
  - intros f g i If Ig T N. pose proof (m_low _ _ _ _ _ M f g i If Ig T N) as X. unfold VT in *.
    pose proof (E f I0 If) as E0. pose proof (E f I1 If) as E1. pose proof (E f I2 If) as E2. cbn [tget] in E0, E1, E2. rewrite <- E0, <- E1, <- E2. destruct T as [v <-]. rewrite <- (E g v Ig). exact X.
  - exact (m_inj _ _ _ _ _ M).
  - exact (m_nbr _ _ _ _ _ M).
  - exact (m_four _ _ _ _ _ M).
  - exact (m_some _ _ _ _ _ M).
Qed.
Lemma filter_all {A} (p : A -> bool) l : (forall x, p x = true) -> filter p l = l.
Proof. intros H. induction l as [|x l IH]; [reflexivity|]. cbn [filter]. rewrite H, IH. reflexivity. Qed.
Lemma filter_split (p : nat -> bool) L : Permutation L (filter p L ++ filter (fun k => negb (p k)) L).
Proof.
  induction L as [|k L IH]; [constructor|]. cbn [filter]. destruct (p k); cbn [negb app]; [constructor; exact IH|]. apply Permutation_cons_app. exact IH.
Qed.

Lemma mesh_ext Q L vt nb vt' nb' : mesh Q n L vt nb -> (forall k, vt' k = vt k) -> (forall k v, nb' k v = nb k v) -> mesh Q n L vt' nb'.
Proof.
  intros M E1 E2. split.
  - exact (m_nodup _ _ _ _ _ M).
  - intros k I. rewrite E1. exact (m_tri _ _ _ _ _ M k I).
  - intros k g i. rewrite !E1. exact (m_low _ _ _ _ _ M k g i).
  - intros k g v w. rewrite !E1. exact (m_inj _ _ _ _ _ M k g v w).
  - intros k v I. rewrite E2. destruct (m_nbr _ _ _ _ _ M k v I) as [A [w B]]. split; [exact A|]. exists w. rewrite !E1. exact B.
  - intros k I. destruct (m_four _ _ _ _ _ M k I) as (g & i & A & B & C). exists g, i. rewrite !E1. repeat split; assumption.
  - exact (m_some _ _ _ _ _ M).
Qed.
Lemma add_point_ok j dl h L f : hull_ok j dl h L -> (S (S j) <= top)%nat -> In f (map snd (ranking h)) ->
  exists h' L' dl', add_point eps pts f h = Ok h' /\ hull_ok (S j) dl' h' L' /\ (sumout (facets h') L' < sumout (facets h) L)%nat.
Proof.
  intros H TP Rf. pose proof (h_mesh _ _ _ _ H) as M. apply (h_rank _ _ _ _ H) in Rf as [Lf Of].
  assert (f < length (facets h))%nat as Bf by (apply (h_dom _ _ _ _ H); left; exact Lf).
  unfold add_point. rewrite (get_fat _ f Bf). cbn [bind]. destruct (fout (fat (facets h) f)) as [|q o] eqn:Eo; [congruence|]. clear Of.
  assert (In q (fout (fat (facets h) f))) as Iq by (rewrite Eo; left; reflexivity).
  destruct (h_fout _ _ _ _ H f q Lf Iq) as [Bq Vq].
  destruct (fat_set_nth (facets h) f (with_lists (fat (facets h) f) o (fcop (fat (facets h) f))) Bf) as (fs0 & -> & Len0 & F0). cbn [bind].
  assert (forall k, fvert (fat fs0 k) = vtf (facets h) k /\ fnbr (fat fs0 k) = fnbr (fat (facets h) k) /\ fnorm (fat fs0 k) = fnorm (fat (facets h) k) /\ fD (fat fs0 k) = fD (fat (facets h) k)) as S0.
  { intros k. rewrite F0. destruct (Nat.eqb_spec k f) as [->|]; repeat split. }
  assert (forall k, k <> f -> fat fs0 k = fat (facets h) k) as Fo by (intros i Hi; rewrite F0; destruct (Nat.eqb_spec i f); [contradiction|reflexivity]).
  assert (fout (fat fs0 f) = o) as Ef by (rewrite F0, Nat.eqb_refl; reflexivity).
  assert (forall k, incl (fout (fat fs0 k)) (fout (fat (facets h) k))) as Sub.
  { intros k i I. destruct (Nat.eq_dec k f) as [->|Nk]; [rewrite Eo; right; rewrite <- Ef; exact I|rewrite <- (Fo k Nk); exact I]. }
  set (vt0 := vtf fs0). set (nb0 := nbf fs0).
  assert (forall k, vt0 k = vtf (facets h) k) as Ev by (intros k; apply S0).
  assert (forall k, In k L -> ~ InT q (vt0 k)) as Nq.
  { intros k I. rewrite Ev. exact (seen_not_vertex j dl L _ _ f q ltac:(lia) M (h_c0 _ _ _ _ H) (h_lev _ _ _ _ H) Lf Vq k I). }
  set (dl' := fun i => if Nat.eqb i q then Lv (S j) else dl i). set (Q := pull dl').
  assert (forall k v, In k L -> dl' (tget v (vt0 k)) = dl (tget v (vt0 k))) as Ed.
  { intros k v I. unfold dl'. destruct (Nat.eqb_spec (tget v (vt0 k)) q) as [X|X]; [exfalso; apply (Nq k I); exists v; exact X|reflexivity]. }
  assert (dl' q = Lv (S j)) as Eq by (unfold dl'; rewrite Nat.eqb_refl; reflexivity).
  assert (mesh Q n L vt0 nb0) as M0.
  { assert (forall k v, nb0 k v = nbf (facets h) k v) as E2 by (intros k v; unfold nb0, nbf; destruct (S0 k) as (_ & -> & _); reflexivity).
    apply (mesh_points (pull dl)); [exact (mesh_ext _ L _ _ vt0 nb0 M Ev E2)|]. intros k v I. unfold Q, pull. rewrite (Ed k v I). reflexivity. }
  assert (forall k, In k L -> good_tri n (vt0 k)) as GT by exact (m_tri _ _ _ _ _ M0).
  assert (forall k, In k L -> facet_ok (vt0 k)) as FT by (intros k I; split; [exact (GT k I)|rewrite Ev; exact (h_c0 _ _ _ _ H k I)]).
  assert (forall k v, In k L -> 0 <= dl' (tget v (vt0 k)) <= Lv j) as LE by (intros k v I; rewrite (Ed k v I), Ev; exact (h_lev _ _ _ _ H k v I)).
  assert (forall k v, In k L -> 0 <= dl' (tget v (vt0 k)) <= Lv (S j)) as LE1 by (intros k v I; pose proof (LE k v I); pose proof (LvS j ltac:(lia)); lra).
  assert (forall k, In k L -> plane_of eps pts (vt0 k) = Ok (fnorm (fat fs0 k), fD (fat fs0 k))) as PL0.
  { intros k I. destruct (S0 k) as (E1 & _ & -> & ->). unfold vt0, vtf at 1. rewrite E1. exact (h_plane _ _ _ _ H k I). }
  assert (forall k, In k L -> (vis Q vt0 q k <-> 0 < VT P (vt0 k) (P q)) /\ VT Q (vt0 k) (Q q) <> 0) as VQ.
  { intros k I. unfold vis. change (Q q) with (mix (dl' q) (P q) cen). rewrite Eq. unfold Q.
    destruct (Rlt_dec 0 (VT P (vt0 k) (P q))) as [X|X].
    - pose proof (Lv0 (S j) ltac:(lia)) as LL. pose proof (Pos (S j) dl' (vt0 k) q (Lv (S j)) ltac:(lia) (FT k I) (fun v => LE1 k v I) Bq ltac:(lra) X) as Y. split; [tauto|lra].
    - pose proof (Neg j dl' (vt0 k) q ltac:(lia) (FT k I) (fun v => LE k v I) Bq (Rnot_lt_le _ _ X)) as Y. split; [split; intros Z; lra|lra]. }
  assert (forall k, In k L -> VT Q (vt0 k) (Q q) <> 0) as NZ by (intros k I; apply (VQ k I)).
  set (Vis := vis Q vt0 q). set (Hor := hor Q L vt0 nb0 q).
  assert (forall k, In k L -> (0 < distance (fat fs0 k) (P q) <-> Vis k)) as Hsee by (intros k I; rewrite (proj2 (sided_at (fat fs0 k) q (FT k I) (PL0 k I) Bq)); symmetry; apply (VQ k I)).
  assert (forall k v, Hor k v -> good_tri n (nt vt0 q k v)) as GN.
  { intros k v (I & _ & _). destruct (GT k I) as [G1 G2]. split.
    - intros w. unfold nt. rewrite tget_tset. destruct (three_eqb v w); [exact Bq|apply G1].
    - intros w w'. unfold nt. rewrite !tget_tset. pose proof (Nq k I) as X.
      destruct (three_eqb v w) eqn:T1, (three_eqb v w') eqn:T2.
      + intros _. destruct v, w, w'; try discriminate; reflexivity.
      + intros E. exfalso. apply X. exists w'. symmetry. exact E.
      + intros E. exfalso. apply X. exists w. exact E.
      + apply G2. }
  assert (forall k v w, In k L -> 0 <= dl' (tget w (nt vt0 q k v)) <= Lv (S j)) as LN.
  { intros k v w I. unfold nt. rewrite tget_tset. destruct (three_eqb v w); [rewrite Eq; pose proof (Lv0 (S j) ltac:(lia)); lra|exact (LE1 k w I)]. }
  assert (forall k v, Hor k v -> facet_ok (nt vt0 q k v)) as FN.
  { intros k v I. split; [exact (GN k v I)|]. pose proof I as (Ik & _). apply (pull_sign (S j) dl' _ ltac:(lia) (fun w => LN k v w Ik)). apply (new_strict Q n L vt0 nb0 M0 q NZ k v cen I).
    intros g Ig. apply (pull_sign (S j) dl' _ ltac:(lia) (fun w => LE1 g w Ig)). apply (FT g Ig). }
  assert (forall k v, Hor k v -> exists nd, plane_of eps pts (nt vt0 q k v) = Ok nd) as HP.
  { intros k v I. destruct (Planes _ (FN k v I)) as (nd & E & _). exists nd. exact E. }
  set (s0 := Walk (QH fs0 (removed h) (ranking h) (outside h)) [] [] [] []).
  assert (walk_ok eps pts Q q fs0 (ranking h) (outside h) L s0 [] []) as W0.
  { split; cbn [s0 wh wnew wridges wvisited wvisible facets removed ranking outside map].
    - intros k [].
    - constructor.
    - intros k. cbn. tauto.
    - constructor.
    - intros k [].
    - reflexivity.
    - intros k v kk [].
    - intros k v kk k' [].
    - constructor.
    - intros k. rewrite Len0, (h_dom _ _ _ _ H k). cbn. tauto.
    - intros k I J. exfalso. exact (h_dis _ _ _ _ H _ J I).
    - intros k [].
    - intros k _ [].
    - exact (h_remn _ _ _ _ H).
    - intros k I. rewrite Fo by (intros ->; exact (h_dis _ _ _ _ H _ Lf I)). exact (h_rout _ _ _ _ H k I).
    - intros k _ _. repeat split.
    - intros k [].
    - reflexivity.
    - intros k w _ _. split; [intros ? ? ? []|reflexivity].
    - intros k v kk [].
    - split; try (intros; destruct H0 as (? & ? & [] & _)); try (intros; destruct H1 as (? & ? & [] & _)).
      + intros k w. split; [intros []|intros (s & c & (? & ? & [] & _) & _)].
      + constructor.
    - intros k v [].
    - intros i. split; [left; assumption|intros [I|(k & [] & _)]; exact I].
    - cbn. lia.
    - symmetry. apply filter_all. intros [x y]. reflexivity. }
  assert (length L < S (length fs0) + length (wvisited s0))%nat as LD.
  { cbn. assert (length L <= length (seq 0 (length fs0)))%nat; [|rewrite seq_length in *; lia]. apply NoDup_incl_length; [exact (m_nodup _ _ _ _ _ M)|].
    intros k I. apply in_seq. assert (k < length (facets h))%nat by (apply (h_dom _ _ _ _ H); left; exact I). lia. }
  destruct (process_ok eps pts Q q fs0 (ranking h) (outside h) L M0 Bq Nq NZ Hsee HP (S (length fs0)) f s0 [] [] W0 Lf LD) as (b & s1 & N & fin & -> & W & EX & V1 & _). cbn [bind].
  destruct EX as (_ & _ & _ & _ & EX & _).
  assert (forall k, In k fin <-> In k (wvisible s1)) as FV by (intros k; split; [apply (i_fin _ _ _ _ _ _ _ _ _ _ _ W)|intros I; destruct (EX k I) as [[]|J]; exact J]).
  assert (Vis f) as Vf by (apply (VQ f Lf); rewrite Ev; exact Vq).
  assert (forall k, In k (wvisible s1) <-> In k L /\ Vis k) as VV.
  { intros k. split; [intros I; apply (i_vs _ _ _ _ _ _ _ _ _ _ _ W) in I as [I J]; split; [exact (i_vd _ _ _ _ _ _ _ _ _ _ _ W _ I)|exact J]|].
    intros [I J]. apply (all_seen Q n L vt0 nb0 M0 (Q q) f (fun k => In k (wvisible s1))); try assumption.
    - apply (i_vs _ _ _ _ _ _ _ _ _ _ _ W). split; [exact V1|exact Vf].
    - intros g v Ig Jg Sg. apply FV in Jg. destruct (i_done _ _ _ _ _ _ _ _ _ _ _ W g v Jg) as [X _]. apply (i_vs _ _ _ _ _ _ _ _ _ _ _ W). split; [exact X|exact Sg]. }
  set (ks := map snd N). set (hid := filter (fun k => negb (mem k (wvisible s1))) L). set (fs1 := facets (wh s1)).
  assert (forall k, In k hid <-> In k L /\ ~ Vis k) as HV.
  { intros k. unfold hid. rewrite filter_In, negb_true_iff. split.
    - intros [I J]. split; [exact I|]. intros X. assert (mem k (wvisible s1) = true) by (apply mem_in, VV; split; assumption). congruence.
    - intros [I J]. split; [exact I|]. apply not_true_iff_false. rewrite mem_in, VV. tauto. }
  set (L' := hid ++ ks).
  assert (forall k v kk, In (k, v, kk) N -> Hor k v) as NH by (intros k v kk I; exact (N_hor eps pts Q q fs0 (ranking h) (outside h) L _ _ _ _ _ _ W I)).
  assert (forall k, In k hid -> ~ In k ks) as DJ.
  { intros k I J. apply HV in I as [I X]. pose proof (i_d2 _ _ _ _ _ _ _ _ _ _ _ W k J I) as Y. apply FV, VV in Y. tauto. }
  assert (NoDup L') as ND'.
  { unfold L'. clear - DJ M0 W. assert (NoDup hid) as A by (apply NoDup_filter; exact (m_nodup _ _ _ _ _ M0)). assert (NoDup ks) as B by exact (i_slots _ _ _ _ _ _ _ _ _ _ _ W).
    revert A DJ. generalize hid. intros l. induction l as [|x l IH]; intros A D; [exact B|]. inversion A; subst. cbn [app]. constructor.
    - rewrite in_app_iff. intros [X|X]; [contradiction|exact (D x (or_introl eq_refl) X)].
    - apply IH; [assumption|]. intros k I. apply D. right. exact I. }
  set (vt1 := vtf fs1). set (nb1 := nbf fs1). set (sl := fun k v kk => In (k, v, kk) N).
  assert (forall k, In k L' -> (In k L /\ ~ Vis k) \/ exists f v, sl f v k) as from.
  { intros k I. apply in_app_iff in I as [I|I]; [left; apply HV; exact I|right]. apply in_map_iff in I as ([[a c] e] & <- & I). exists a, c. exact I. }
  assert (forall k, In k L -> ~ Vis k -> In k L' /\ vt1 k = vt0 k) as kept.
  { intros k I J. split; [apply in_or_app; left; apply HV; split; assumption|]. apply (i_keep _ _ _ _ _ _ _ _ _ _ _ W k I). rewrite FV, VV. tauto. }
  assert (forall f v k, sl f v k -> Hor f v /\ In k L' /\ vt1 k = nt vt0 q f v) as slot.
  { intros g v k I. split; [exact (NH _ _ _ I)|]. split; [apply in_or_app; right; exact (in_slots _ _ _ _ I)|]. apply (i_nw _ _ _ _ _ _ _ _ _ _ _ W _ _ _ I). }
  assert (forall f v k k', sl f v k -> sl f v k' -> k = k') as slot1 by exact (i_fun _ _ _ _ _ _ _ _ _ _ _ W).
  assert (forall f v, Hor f v -> exists k, sl f v k) as slots.
  { intros g v (I & J & K). assert (In g fin) as X by (apply FV, VV; split; assumption). apply (i_done _ _ _ _ _ _ _ _ _ _ _ W g v X). exact K. }
  assert (forall h v, In h L -> ~ Vis h -> ~ Vis (nb0 h v) -> nb1 h v = nb0 h v) as nb_kept.
  { intros g v I J K. assert (~ In g (wvisible s1)) as X by (rewrite VV; tauto). apply (i_hnb _ _ _ _ _ _ _ _ _ _ _ W g v I X).
    intros a c e A E. destruct (NH _ _ _ A) as (A1 & A2 & _). apply K.
    assert (nb0 g v = a) as ->; [|exact A2]. apply (nb_of_edge pts Q fs0 L M0 g v a c I A1). rewrite E, rev2_rev2. reflexivity. }
  assert (forall h v w k, In h L -> ~ Vis h -> sl (nb0 h v) w k -> edge (vt0 (nb0 h v)) w = rev2 (edge (vt0 h) v) -> nb1 h v = k) as nb_moved.
  { intros g v w k I J A E. assert (~ In g (wvisible s1)) as X by (rewrite VV; tauto). exact (proj1 (i_hnb _ _ _ _ _ _ _ _ _ _ _ W g v I X) _ _ _ A E). }
  assert (forall f v k, sl f v k -> nb1 k v = nb0 f v) as nb_new by (intros g v k I; apply (i_nw _ _ _ _ _ _ _ _ _ _ _ W _ _ _ I)).
  assert (forall f v k f' v' k', sl f v k -> sl f' v' k' -> head vt0 f v = tail vt0 f' v' -> nb1 k (nx v) = k' /\ nb1 k' (nx (nx v')) = k) as nb_next.
  { intros a v k a' v' k' I I' E. pose proof (i_ri _ _ _ _ _ _ _ _ _ _ _ W) as RO. pose proof (fun x1 x2 x3 x4 x5 x6 => r_join _ _ _ _ RO x1 x2 x3 x4 x5 x6) as RJ.
    assert (reg fs0 N k (nx v) true (head vt0 a v)) as R1 by (exists a, v; split; [exact I|left; repeat split]).
    assert (reg fs0 N k' (nx (nx v')) false (head vt0 a v)) as R2 by (exists a', v'; split; [exact I'|right; repeat split; exact E]).
    split; [exact (RJ _ _ _ _ _ _ R1 R2)|exact (RJ _ _ _ _ _ _ R2 R1)]. }
  pose proof (mesh_step Q n L vt0 nb0 M0 q Bq Nq NZ L' vt1 nb1 sl ND' from kept slot slot1 slots nb_kept nb_moved nb_new nb_next f Lf Vf) as M1.
  assert (forall i, In i (outside (wh s1)) -> (i < n)%nat /\ exists k, In k L /\ Vis k /\ In i (fout (fat fs0 k))) as OUT.
  { intros i I. apply (i_out _ _ _ _ _ _ _ _ _ _ _ W) in I. rewrite (h_out _ _ _ _ H) in I. destruct I as [[]|(k & A & B)]. apply VV in A as [A1 A2]. split; [|exists k; repeat split; assumption].
    exact (proj1 (h_fout _ _ _ _ H k i A1 (Sub _ _ B))). }
  assert (forall k, In k ks -> exists g v, In (g, v, k) N) as KN by (intros k I; apply in_map_iff in I as ([[a c] e] & <- & I); exists a, c; exact I).
  destruct (rank_all_ok ks (wh s1)) as (h2 & E2 & Len2 & Rem2 & SM2 & Out2 & In2 & Cov2 & Rk2 & Sum2).
  { exact (i_slots _ _ _ _ _ _ _ _ _ _ _ W). }
  { intros i I. exact (proj1 (OUT i I)). }
  { intros k I. destruct (KN k I) as (g & v & J). destruct (i_nw _ _ _ _ _ _ _ _ _ _ _ W _ _ _ J) as (B1 & B2 & B3 & _). cbn zeta in *. fold fs1 in B1, B2, B3 |- *.
    split; [apply (i_dom _ _ _ _ _ _ _ _ _ _ _ W); right; right; exact I|]. rewrite B1. split; [exact (FN g v (NH _ _ _ J))|]. split; [exact B2|exact B3]. }
  rewrite (i_new _ _ _ _ _ _ _ _ _ _ _ W). fold ks. rewrite E2. cbn [bind].
  exists (QH (facets h2) (removed h2) (ranking h2) []), L', dl'. split; [reflexivity|].
  assert (forall k, vtf (facets h2) k = vt1 k) as EV by (intros k; apply SM2).
  assert (forall k v, nbf (facets h2) k v = nb1 k v) as EN by (intros k v; unfold nbf; destruct (SM2 k) as (_ & -> & _); reflexivity).
  assert (mesh Q n L' (vtf (facets h2)) (nbf (facets h2))) as M2.
  { exact (mesh_ext Q L' vt1 nb1 _ _ M1 EV EN). }
  assert (forall k, In k hid -> fout (fat (facets h2) k) = fout (fat (facets h) k)) as HO.
  { intros k I. rewrite (Out2 k (DJ k I)). apply HV in I as [I J]. rewrite (i_hid _ _ _ _ _ _ _ _ _ _ _ W k I) by (rewrite VV; tauto). rewrite Fo; [reflexivity|]. intros ->. contradiction. }
  assert (forall k v, In k L' -> (exists a u, In a L /\ tget v (vt1 k) = tget u (vt0 a)) \/ tget v (vt1 k) = q) as VS.
  { intros k v I. destruct (from k I) as [[I1 I2]|(g & w & I1)].
    - left. exists k, v. destruct (kept k I1 I2) as [_ ->]. split; [exact I1|reflexivity].
    - destruct (slot _ _ _ I1) as ((Ig & _) & _ & ->). unfold nt. rewrite tget_tset. destruct (three_eqb w v); [right; reflexivity|left; exists g, v; split; [exact Ig|reflexivity]]. }
  assert (forall k v, In k L' -> 0 <= dl' (tget v (vt1 k)) <= Lv (S j)) as LE2.
  { intros k v I. destruct (VS k v I) as [(a & u & A & ->)| ->]; [exact (LE1 a u A)|]. rewrite Eq. pose proof (Lv0 (S j) ltac:(lia)). lra. }
  assert (forall k, In k L' -> facet_ok (vt1 k)) as FT1.
  { intros k I. destruct (from k I) as [[I1 I2]|(g & w & I1)].
    - destruct (kept k I1 I2) as [_ ->]. exact (FT k I1).
    - destruct (slot _ _ _ I1) as (Hg & _ & ->). exact (FN g w Hg). }
  assert (forall a u, In a L -> P (tget u (vtf (facets h) a)) <> P q) as OQ.
  { intros a u A E. apply (seen_not_vertex j dl L _ _ f (tget u (vtf (facets h) a)) ltac:(lia) M (h_c0 _ _ _ _ H) (h_lev _ _ _ _ H) Lf) with (g := a); [|exact A|exists u; reflexivity]. rewrite E. exact Vq. }
  set (far := fun i => mix (Lv (S (S j))) (P i) cen).
  assert (forall t i, facet_ok t -> (forall v, 0 <= dl' (tget v t) <= Lv (S j)) -> (i < n)%nat -> (0 < VT P t (P i) <-> 0 < VT Q t (far i))) as SG.
  { intros t i G B Bi. pose proof (LvS (S j) ltac:(lia)) as LL. pose proof (Lv0 (S (S j)) ltac:(lia)) as L2. split; intros X.
    - apply (Pos (S (S j))); try assumption; try lra. intros v. specialize (B v). lra.
    - apply Rnot_le_lt. intros Y. pose proof (Neg (S j) dl' t i ltac:(lia) G B Bi Y) as Z. unfold Q, far in X. lra. }
  split; [split; cbn [facets removed ranking outside]|].
  - exact M2.
  - intros k I. rewrite EV. apply (FT1 k I).
  - intros k v I. rewrite EV. exact (LE2 k v I).
  - intros k k' v v' I I'. rewrite !EV. intros E. destruct (VS k v I) as [(a & u & A & E1)|E1], (VS k' v' I') as [(a' & u' & A' & E1')|E1']; rewrite E1, E1' in *.
    + rewrite !Ev in *. exact (h_inj _ _ _ _ H a a' u u' A A' E).
    + exfalso. rewrite Ev in E. exact (OQ a u A E).
    + exfalso. rewrite Ev in E. symmetry in E. exact (OQ a' u' A' E).
    + reflexivity.
  - intros k I. rewrite EV. destruct (SM2 k) as (_ & _ & -> & ->). apply in_app_iff in I as [I|I].
    + apply HV in I as [I J]. destruct (kept k I J) as [_ ->]. destruct (i_keep _ _ _ _ _ _ _ _ _ _ _ W k I) as (_ & -> & ->); [rewrite FV, VV; tauto|]. exact (PL0 k I).
    + destruct (KN k I) as (g & v & J). destruct (i_nw _ _ _ _ _ _ _ _ _ _ _ W _ _ _ J) as (B1 & B2 & _). unfold vt1, vtf. fold fs1. fold fs1 in B1. rewrite B1. exact B2.
  - intros k. rewrite Len2, (i_dom _ _ _ _ _ _ _ _ _ _ _ W k), Rem2. unfold L'. rewrite in_app_iff, HV, FV, VV. fold ks. clear. tauto.
  - intros k I J. rewrite Rem2 in J. apply in_app_iff in I as [I|I].
    + apply HV in I as [I X]. pose proof (i_d1 _ _ _ _ _ _ _ _ _ _ _ W k J I) as Y. apply FV, VV in Y. tauto.
    + exact (i_d3 _ _ _ _ _ _ _ _ _ _ _ W k J I).
  - rewrite Rem2. exact (i_d4 _ _ _ _ _ _ _ _ _ _ _ W).
  - intros k I. rewrite Rem2 in I. rewrite (Out2 k (i_d3 _ _ _ _ _ _ _ _ _ _ _ W k I)). exact (i_rout _ _ _ _ _ _ _ _ _ _ _ W k I).
  - intros k i I J. rewrite EV. apply in_app_iff in I as [I|I].
    + rewrite (HO k I) in J. apply HV in I as [I X]. destruct (kept k I X) as [_ ->]. unfold vt0, vtf. rewrite (proj1 (S0 k)). exact (h_fout _ _ _ _ H k i I J).
    + destruct (In2 k i I J) as [A B]. split; [exact (proj1 (OUT i A))|exact B].
  - intros i Bi. assert (forall k, In k L' -> ~ In k ks -> In k hid) as X by (intros k I J; apply in_app_iff in I as [I|I]; [exact I|contradiction]).
    destruct (h_cover _ _ _ _ H i Bi) as [(k0 & A & B)|A].
    + destruct (Nat.eq_dec i q) as [->|Niq].
      { right. intros k I. rewrite EV. destruct (from k I) as [[I1 I2]|(g & v & I1)].
        - destruct (kept k I1 I2) as [_ ->]. apply Rnot_lt_le. intros Y. apply I2, (VQ k I1), Y.
        - destruct (slot _ _ _ I1) as (_ & _ & ->). rewrite VT_vertex; [lra|]. exists v. apply tget_same. }
      assert (In i (fout (fat fs0 k0))) as B0.
      { destruct (Nat.eq_dec k0 f) as [->|Nk]; [rewrite Eo in B; rewrite Ef; destruct B as [B|B]; [congruence|exact B]|rewrite (Fo k0 Nk); exact B]. }
      destruct (vis_dec Q vt0 q k0) as [V|V].
      2:{ left. exists k0. assert (In k0 hid) as Ih by (apply HV; split; [exact A|exact V]). split; [apply in_or_app; left; exact Ih|]. rewrite (HO k0 Ih). exact B. }
      assert (In i (outside (wh s1))) as IO by (apply (i_out _ _ _ _ _ _ _ _ _ _ _ W); right; exists k0; split; [apply VV; split; assumption|exact B0]).
      destruct (Cov2 i IO) as [(k & K1 & K2)|K]; [left; exists k; split; [apply in_or_app; right; exact K1|exact K2]|right].
      intros k I. rewrite EV. apply Rnot_lt_le. rewrite (SG _ _ (FT1 k I) (fun v => LE2 k v I) Bi). apply Rle_not_lt.
      apply (outside_sees Q n L vt0 nb0 M0 q Bq Nq NZ L' vt1 nb1 sl ND' from kept slot slot1 slots nb_kept nb_moved nb_new nb_next f Lf Vf (far i) k0); try assumption.
      * intros y K0 IK0 E0 N0. exact (in_triangle Q n L' vt1 nb1 M1 K0 y IK0 E0 N0).
      * apply (SG _ _ (FT k0 A) (fun v => LE1 k0 v A) Bi). rewrite Ev. exact (proj2 (h_fout _ _ _ _ H k0 i A B)).
      * intros g v Hg. destruct (slots g v Hg) as [kk Hk]. destruct (slot _ _ _ Hk) as (_ & Ikk & Ekk). rewrite <- Ekk. apply Rnot_lt_le. rewrite <- (SG _ _ (FT1 kk Ikk) (fun v => LE2 kk v Ikk) Bi). exact (K kk (in_slots _ _ _ _ Hk)).
    + right. intros k I. rewrite EV. apply Rnot_lt_le. rewrite (SG _ _ (FT1 k I) (fun v => LE2 k v I) Bi). apply Rle_not_lt.
      apply (inside_stays Q n L vt0 nb0 M0 q NZ L' vt1 sl from kept slot (far i)); [|exact I].
      intros k1 I1. apply Rnot_lt_le. rewrite <- (SG _ _ (FT k1 I1) (fun v => LE1 k1 v I1) Bi). rewrite Ev. apply Rle_not_lt. exact (A k1 I1).
  - intros k. rewrite Rk2, (i_rank _ _ _ _ _ _ _ _ _ _ _ W). unfold L'. rewrite in_app_iff.
    assert (In k (map snd (filter (fun e => negb (mem (snd e) fin)) (ranking h))) <-> In k (map snd (ranking h)) /\ ~ In k fin) as ->.
    { rewrite !in_map_iff. split.
      - intros (e & <- & I). apply filter_In in I as [I J]. apply negb_true_iff in J. split; [exists e; split; [reflexivity|exact I]|]. intros X. apply mem_in in X. congruence.
      - intros [(e & <- & I) J]. exists e. split; [reflexivity|]. apply filter_In. split; [exact I|]. apply negb_true_iff, not_true_iff_false. rewrite mem_in. exact J. }
    rewrite (h_rank _ _ _ _ H), FV, VV. split.
    + intros [[[A B] C]|[A B]]; [|split; [right; exact A|exact B]]. assert (In k hid) as I by (apply HV; tauto). split; [left; exact I|]. rewrite (HO k I). exact B.
    + intros [[A|A] B]; [|right; split; assumption]. left. rewrite (HO k A) in B. apply HV in A. tauto.
  - reflexivity.
  - cbn [facets]. unfold L'. rewrite sumout_app. rewrite (sumout_same (facets h2) (facets h) hid HO).
    pose proof (i_olen _ _ _ _ _ _ _ _ _ _ _ W) as OL. rewrite (h_out _ _ _ _ H) in OL. cbn [length] in OL. fold (sumout fs0 (wvisible s1)) in OL.
    assert (Permutation (wvisible s1) (filter (fun k => mem k (wvisible s1)) L)) as PM.
    { apply NoDup_Permutation; [exact (i_vsn _ _ _ _ _ _ _ _ _ _ _ W)|apply NoDup_filter; exact (m_nodup _ _ _ _ _ M)|]. intros k. rewrite filter_In, mem_in. split; [intros I; split; [apply VV in I; tauto|exact I]|tauto]. }
    rewrite (sumout_perm _ _ _ (filter_split (fun k => mem k (wvisible s1)) L)), sumout_app. fold hid. rewrite <- (sumout_perm (facets h) _ _ PM).
    assert (sumout fs0 (wvisible s1) < sumout (facets h) (wvisible s1))%nat; [|lia].
    assert (In f (wvisible s1)) as If by (apply VV; split; assumption). apply in_split in If as (l1 & l2 & El). pose proof (i_vsn _ _ _ _ _ _ _ _ _ _ _ W) as NDv. rewrite El in NDv |- *.
    apply NoDup_remove_2 in NDv. rewrite !sumout_app, !sumout_cons, Ef, Eo. cbn [length].
    rewrite (sumout_same fs0 (facets h) l1), (sumout_same fs0 (facets h) l2); [lia| |]; intros k I; rewrite Fo; try reflexivity; intros ->; apply NDv, in_or_app; [right|left]; exact I.
Qed.
Lemma last_some {A} (l : list A) : match last (map Some l) None with None => l = [] | Some x => In x l end.
Proof.
  induction l as [|a l IH]; [reflexivity|]. cbn [map]. destruct l as [|b l]; [left; reflexivity|]. cbn [map last] in *.
  destruct (last (map Some l) None) eqn:E; destruct l; cbn [map] in *; try (right; exact IH); try discriminate; cbn in *; try (rewrite E in IH); try (right; exact IH); try discriminate; try congruence.
Qed.
Lemma hull_loop_ok m : forall j dl h L, hull_ok j dl h L -> (sumout (facets h) L <= m)%nat -> (j + m + 2 <= top)%nat ->
  exists h' L' j' dl', hull_loop eps pts m h = Ok h' /\ hull_ok j' dl' h' L' /\ (S j' <= top)%nat /\ ranking h' = [].
Proof.
  induction m as [|m IH]; intros j dl h L H SO T; cbn [hull_loop]; pose proof (last_some (ranking h)) as LS; destruct (last (map Some (ranking h)) None) as [[x f]|].
  - exfalso. assert (In f (map snd (ranking h))) as I by (apply in_map_iff; exists (x, f); split; [reflexivity|exact LS]). destruct (add_point_ok j dl h L f H ltac:(lia) I) as (h' & L' & dl' & _ & _ & X). lia.
  - exists h, L, j, dl. repeat (split; [first [reflexivity|assumption|lia]|]). exact LS.
  - assert (In f (map snd (ranking h))) as I by (apply in_map_iff; exists (x, f); split; [reflexivity|exact LS]). destruct (add_point_ok j dl h L f H ltac:(lia) I) as (h' & L' & dl' & -> & H' & X). cbn [bind].
    apply (IH (S j) dl' h' L' H'); lia.
  - exists h, L, j, dl. repeat (split; [first [reflexivity|assumption|lia]|]). exact LS.
Qed.
(** at the end every point is on the inner side of every facet *)
Lemma hull_done j dl h L : hull_ok j dl h L -> ranking h = [] -> forall i k, (i < n)%nat -> In k L -> VT P (vtf (facets h) k) (P i) <= 0.
Proof.
  intros H E i k Bi Ik. destruct (h_cover _ _ _ _ H i Bi) as [(k0 & A & B)|A]; [|exact (A k Ik)]. exfalso.
  assert (In k0 (map snd (ranking h))) as X by (apply (h_rank _ _ _ _ H); split; [exact A|intros Y; rewrite Y in B; destruct B]). rewrite E in X. destruct X.
Qed.
End Step.
