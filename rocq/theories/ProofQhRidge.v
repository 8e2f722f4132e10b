(** quickhull: matching the ridges of the new facets. *)
From Coq Require Import List Arith Bool ZArith Reals Lra Lia Permutation.
From Verif Require Import Base LoopFacts ModelPlane ModelQuickhull SpecQuickhull ProofQhGeo ProofQhMesh.
Import ListNotations.
Local Open Scope R_scope.

Definition fdflt : facet := Facet (T3 0 0 0)%nat (T3 0 0 0)%nat [] [] (RV 0 0 0) 0.
Definition fat (fs : list facet) (k : nat) : facet := nth k fs fdflt.
Definition same_but_nbr (f g : facet) : Prop := fvert f = fvert g /\ fout f = fout g /\ fnorm f = fnorm g /\ fD f = fD g.
Lemma sbn_refl f : same_but_nbr f f. Proof. repeat split. Qed.
Lemma sbn_trans f g h : same_but_nbr f g -> same_but_nbr g h -> same_but_nbr f h.
Proof. intros (A & B & C & D) (A' & B' & C' & D'). repeat split; congruence. Qed.
Lemma others_in f w i : In i (others f w) <-> InT i (fvert f) /\ i <> tget w (fvert f).
Proof.
  unfold others. rewrite filter_In. split.
  - intros [H N]. split; [destruct H as [<-|[<-|[<-|[]]]]; [exists I0|exists I1|exists I2]; reflexivity|]. intros E. rewrite E, Nat.eqb_refl in N. discriminate.
  - intros [[v <-] N]. split; [destruct v; [left|right; left|right; right; left]; reflexivity|]. apply negb_true_iff, Nat.eqb_neq. exact N.
Qed.

Section Ridge.
Variable q : nat.
(** the ridge [w] of facet [k] joins the new point and the vertex [c] *)
Definition rkey (fs : list facet) (k : nat) (w : three) (c : nat) : Prop :=
  (k < length fs)%nat /\ c <> q /\ forall i, In i (others (fat fs k) w) <-> i = q \/ i = c.
Lemma ridge_eq_key f v g w c c' : c <> q -> c' <> q -> (forall i, In i (others f v) <-> i = q \/ i = c) -> (forall i, In i (others g w) <-> i = q \/ i = c') ->
  ridge_eq f v g w = Nat.eqb c c'.
Proof.
  intros Nc Nc' A B. unfold ridge_eq. destruct (Nat.eqb_spec c c') as [->|N].
  - apply forallb_forall. intros l Hl. apply existsb_exists. exists l. split; [apply B, A; exact Hl|apply Nat.eqb_refl].
  - apply not_true_iff_false. intros H. rewrite forallb_forall in H. specialize (H c (proj2 (A c) (or_intror eq_refl))).
    apply existsb_exists in H as (x & Hx & E). apply Nat.eqb_eq in E. subst x. apply B in Hx as [X|X]; contradiction.
Qed.
Lemma take_ridge_spec fs f v c : c <> q -> (forall i, In i (others f v) <-> i = q \/ i = c) -> forall l,
  (forall k w, In (k, w) l -> exists c', rkey fs k w c') ->
  (exists k w l1 l2, l = l1 ++ (k, w) :: l2 /\ rkey fs k w c /\ take_ridge fs f v l = Ok (Some (k, w), l1 ++ l2)) \/
  ((forall k w, In (k, w) l -> ~ rkey fs k w c) /\ take_ridge fs f v l = Ok (None, l)).
Proof.
  intros Nc A. induction l as [|[k w] l IH]; intros H; [right; split; [intros k w []|reflexivity]|].
  destruct (H k w (or_introl eq_refl)) as (c' & B & Nc' & K). cbn [take_ridge]. rewrite (get_ok fs k fdflt B). cbn [bind]. fold (fat fs k).
  rewrite (ridge_eq_key _ _ _ _ c c' Nc Nc' A K). destruct (Nat.eqb_spec c c') as [<-|N].
  - left. exists k, w, [], l. split; [reflexivity|]. split; [split; [exact B|split; [exact Nc'|exact K]]|reflexivity].
  - destruct IH as [(k1 & w1 & l1 & l2 & E & R & T)|[Z T]]; [intros k1 w1 I1; apply H; right; exact I1| |]; rewrite T; cbn [bind].
    + left. exists k1, w1, ((k, w) :: l1), l2. split; [rewrite E; reflexivity|]. split; [exact R|reflexivity].
    + right. split; [|reflexivity]. intros k1 w1 [E|I1] R; [|exact (Z _ _ I1 R)]. injection E as <- <-. destruct R as (_ & _ & R).
      assert (c = q \/ c = c') as [X|X] by (apply K, R; right; reflexivity); contradiction.
Qed.

(** [HR k w s c]: ridge [w] of facet [k] is registered for vertex [c], where an
    edge of the horizon ends ([s] is true) or starts *)
Definition halves := nat -> three -> bool -> nat -> Prop.
Record ridges_ok (fs : list facet) (ridges : list (nat * three)) (HR : halves) : Prop := {
  r_key : forall k w s c, HR k w s c -> rkey fs k w c;
  r_uniq : forall k w k' w' s c, HR k w s c -> HR k' w' s c -> k = k' /\ w = w';
  r_one : forall k w s c s' c', HR k w s c -> HR k w s' c' -> s = s' /\ c = c';
  r_join : forall k w s c k' w', HR k w s c -> HR k' w' (negb s) c -> tget w (fnbr (fat fs k)) = k';
  r_open : forall k w, In (k, w) ridges <-> exists s c, HR k w s c /\ forall k' w', ~ HR k' w' (negb s) c;
  r_nodup : NoDup ridges }.
Lemma rkey_inj fs k w c c' : rkey fs k w c -> rkey fs k w c' -> c = c'.
Proof. intros (_ & N & A) (_ & N' & B). assert (c = q \/ c = c') as [X|X] by (apply B, A; right; reflexivity); congruence. Qed.
Definition add_half (HR : halves) (k : nat) (w : three) (s : bool) (c : nat) : halves :=
  fun k' w' s' c' => HR k' w' s' c' \/ (k' = k /\ w' = w /\ s' = s /\ c' = c).
Lemma fat_set fs k x fs' : (forall j d, nth j fs' d = if Nat.eqb j k then x else nth j fs d) -> forall j, fat fs' j = if Nat.eqb j k then x else fat fs j.
Proof. intros H j. apply H. Qed.
Lemma match_ridge_ok fs ridges HR k w s c :
  ridges_ok fs ridges HR -> rkey fs k w c -> (forall s' c', ~ HR k w s' c') -> (forall k' w', ~ HR k' w' s c) -> (forall w' s', ~ HR k w' s' c) ->
  exists fs' ridges', match_ridge k w (fs, ridges) = Ok (fs', ridges') /\ ridges_ok fs' ridges' (add_half HR k w s c) /\ length fs' = length fs /\
    (forall j, same_but_nbr (fat fs' j) (fat fs j)) /\
    (forall j x, (forall s' c', ~ add_half HR k w s c j x s' c') -> tget x (fnbr (fat fs' j)) = tget x (fnbr (fat fs j))).
Proof.
  intros R (B & Nc & K) N1 N2 N3. unfold match_ridge. rewrite (get_ok fs k fdflt B). cbn [bind]. fold (fat fs k).
  assert (forall k w, In (k, w) ridges -> exists c', rkey fs k w c') as HK by (intros k1 w1 I1; apply (r_open _ _ _ R) in I1 as (s1 & c1 & H1 & _); exists c1; exact (r_key _ _ _ R _ _ _ _ H1)).
  destruct (take_ridge_spec fs (fat fs k) w c Nc K ridges HK) as [(k' & w' & l1 & l2 & E & RK & ->)|[Z ->]]; cbn [bind].
  - assert (HR k' w' (negb s) c) as H'.
    { assert (In (k', w') ridges) as I by (rewrite E; apply in_elt). apply (r_open _ _ _ R) in I as (s1 & c1 & H1 & _).
      pose proof (rkey_inj _ _ _ _ _ RK (r_key _ _ _ R _ _ _ _ H1)) as <-. destruct s, s1; cbn [negb]; try exact H1; exfalso; exact (N2 _ _ H1). }
    assert ((k', w') <> (k, w)) as NE by (intros X; injection X as -> ->; exact (N1 _ _ H')).
    destruct RK as (B' & _ & K'). assert (k' <> k) as NK by (intros ->; exact (N3 _ _ H')).
    rewrite (get_ok fs k' fdflt B'). cbn [bind]. fold (fat fs k').
    destruct (set_nth_ok fs k' (with_nbr (fat fs k') (tset w' k (fnbr (fat fs k')))) B') as (fs1 & -> & Len1 & Nth1). cbn [bind].
    rewrite (get_ok fs1 k fdflt) by (rewrite Len1; exact B). cbn [bind]. fold (fat fs1 k).
    destruct (set_nth_ok fs1 k (with_nbr (fat fs1 k) (tset w k' (fnbr (fat fs1 k))))) as (fs2 & -> & Len2 & Nth2); [rewrite Len1; exact B|]. cbn [bind].
    exists fs2, (l1 ++ l2). split; [reflexivity|].
    assert (forall j, fat fs1 j = if Nat.eqb j k' then with_nbr (fat fs k') (tset w' k (fnbr (fat fs k'))) else fat fs j) as F1 by (intros j; apply Nth1).
    assert (forall j, fat fs2 j = if Nat.eqb j k then with_nbr (fat fs1 k) (tset w k' (fnbr (fat fs1 k))) else fat fs1 j) as F2 by (intros j; apply Nth2).
    assert (fat fs1 k = fat fs k) as Fk by (rewrite F1; destruct (Nat.eqb_spec k k'); [congruence|reflexivity]).
    rewrite Fk in F2.
    assert (forall j, same_but_nbr (fat fs2 j) (fat fs j)) as SB.
    { intros j. rewrite F2. destruct (Nat.eqb_spec j k) as [->|]; [repeat split|]. rewrite F1. destruct (Nat.eqb_spec j k') as [->|]; repeat split. }
    assert (forall j x, tget x (fnbr (fat fs2 j)) = if Nat.eqb j k then (if three_eqb x w then k' else tget x (fnbr (fat fs j))) else
       if Nat.eqb j k' then (if three_eqb x w' then k else tget x (fnbr (fat fs j))) else tget x (fnbr (fat fs j))) as NB.
    { intros j x. rewrite F2. destruct (Nat.eqb_spec j k) as [->|]; [cbn [with_nbr fnbr]; rewrite tget_tset; destruct x, w; reflexivity|]. rewrite F1. destruct (Nat.eqb_spec j k') as [->|]; [cbn [with_nbr fnbr]; rewrite tget_tset; destruct x, w'; reflexivity|reflexivity]. }
    assert (forall j x c', rkey fs j x c' -> rkey fs2 j x c') as KK.
    { intros j x c' (Bj & Nj & Kj). split; [rewrite Len2, Len1; exact Bj|]. split; [exact Nj|]. intros i. rewrite <- Kj, !others_in. destruct (SB j) as (-> & _). reflexivity. }
    assert (forall j x, (j, x) <> (k, w) -> (j, x) <> (k', w') -> tget x (fnbr (fat fs2 j)) = tget x (fnbr (fat fs j))) as NBO.
    { intros j x D1 D2. rewrite NB. destruct (Nat.eqb_spec j k) as [->|]; [destruct x, w; cbn; congruence|]. destruct (Nat.eqb_spec j k') as [->|]; [destruct x, w'; cbn; congruence|reflexivity]. }
    assert (~ In (k', w') (l1 ++ l2)) as NI by (pose proof (r_nodup _ _ _ R) as ND; rewrite E in ND; apply NoDup_remove_2 in ND; exact ND).
    assert (forall s0, negb s0 = s -> s0 = negb s) as NS by (intros [] <-; reflexivity).
    split; [|split; [rewrite Len2, Len1; reflexivity|split; [exact SB|]]].
    + split.
      * intros j x s' c' [H|(-> & -> & -> & ->)]; apply KK; [exact (r_key _ _ _ R _ _ _ _ H)|repeat split; try assumption; apply K].
      * intros j x j' x' s' c' [H|(-> & -> & -> & ->)] [G|(-> & -> & G1 & G2)]; subst; [exact (r_uniq _ _ _ R _ _ _ _ _ _ H G)|exfalso; exact (N2 _ _ H)|exfalso; exact (N2 _ _ G)|split; reflexivity].
      * intros j x s1 c1 s2 c2 [H|(-> & -> & -> & ->)] [G|(X1 & X2 & -> & ->)]; subst; [exact (r_one _ _ _ R _ _ _ _ _ _ H G)|exfalso; exact (N1 _ _ H)|exfalso; exact (N1 _ _ G)|split; reflexivity].
      * intros j x s1 c1 j' x' [H|(-> & -> & -> & ->)] [G|(X1 & X2 & X3 & X4)].
        -- rewrite NBO; [exact (r_join _ _ _ R _ _ _ _ _ _ H G)|intros X; injection X as -> ->; exact (N1 _ _ H)|].
           intros X. injection X as -> ->. destruct (r_one _ _ _ R _ _ _ _ _ _ H H') as [-> ->]. rewrite negb_involutive in G. exact (N2 _ _ G).
        -- subst j' x' c1. apply NS in X3. subst s1. destruct (r_uniq _ _ _ R _ _ _ _ _ _ H H') as [-> ->]. rewrite NB.
           destruct (Nat.eqb_spec k' k); [contradiction|]. rewrite Nat.eqb_refl. destruct w'; reflexivity.
        -- destruct (r_uniq _ _ _ R _ _ _ _ _ _ G H') as [-> ->]. rewrite NB, Nat.eqb_refl. destruct w; reflexivity.
        -- destruct s; discriminate X3.
      * intros j x. split.
        -- intros I. assert (In (j, x) ridges) as I' by (rewrite E; apply in_app_iff in I as [I|I]; apply in_or_app; [left|right; right]; exact I).
           pose proof I' as I2. apply (r_open _ _ _ R) in I2 as (s1 & c1 & H & O). exists s1, c1. split; [left; exact H|]. intros j' x' [G|(-> & -> & X3 & ->)]; [exact (O _ _ G)|].
           apply NS in X3. subst s1. destruct (r_uniq _ _ _ R _ _ _ _ _ _ H H') as [-> ->]. exact (NI I).
        -- intros (s1 & c1 & [H|(-> & -> & -> & ->)] & O); [|exfalso; apply (O k' w'); left; exact H'].
           assert (In (j, x) ridges) as I by (apply (r_open _ _ _ R); exists s1, c1; split; [exact H|intros j' x' G; apply (O j' x'); left; exact G]).
           rewrite E in I. apply in_app_iff in I as [I|[I|I]]; [apply in_or_app; left; exact I| |apply in_or_app; right; exact I].
           exfalso. injection I as <- <-. destruct (r_one _ _ _ R _ _ _ _ _ _ H H') as [-> ->]. apply (O k w). right. rewrite negb_involutive. repeat split.
      * pose proof (r_nodup _ _ _ R) as ND. rewrite E in ND. exact (NoDup_remove_1 _ _ _ ND).
    + intros j x H. apply NBO; intros X; injection X as -> ->; [apply (H s c); right; repeat split|apply (H (negb s) c); left; exact H'].
  - assert (forall k' w', ~ HR k' w' (negb s) c) as NO.
    { intros k' w' H'. apply (Z k' w'); [|exact (r_key _ _ _ R _ _ _ _ H')]. apply (r_open _ _ _ R). exists (negb s), c. split; [exact H'|]. rewrite negb_involutive. exact N2. }
    exists fs, ((k, w) :: ridges). split; [reflexivity|]. split; [|split; [reflexivity|split; [intros j; apply sbn_refl|reflexivity]]].
    assert (forall s0, negb s0 = s -> s0 = negb s) as NS by (intros [] <-; reflexivity).
    split.
    + intros j x s' c' [H|(-> & -> & -> & ->)]; [exact (r_key _ _ _ R _ _ _ _ H)|repeat split; try assumption; apply K].
    + intros j x j' x' s' c' [H|(-> & -> & -> & ->)] [G|(-> & -> & G1 & G2)]; subst; [exact (r_uniq _ _ _ R _ _ _ _ _ _ H G)|exfalso; exact (N2 _ _ H)|exfalso; exact (N2 _ _ G)|split; reflexivity].
    + intros j x s1 c1 s2 c2 [H|(-> & -> & -> & ->)] [G|(X1 & X2 & -> & ->)]; subst; [exact (r_one _ _ _ R _ _ _ _ _ _ H G)|exfalso; exact (N1 _ _ H)|exfalso; exact (N1 _ _ G)|split; reflexivity].
    + intros j x s1 c1 j' x' [H|(-> & -> & -> & ->)] [G|(X1 & X2 & X3 & X4)]; [exact (r_join _ _ _ R _ _ _ _ _ _ H G)| | |destruct s; discriminate X3].
      * subst j' x' c1. apply NS in X3. subst s1. exfalso. exact (NO _ _ H).
      * exfalso. exact (NO _ _ G).
    + intros j x. split.
      * intros [X|I]; [injection X as <- <-; exists s, c; split; [right; repeat split|]; intros j' x' [G|(_ & _ & G & _)]; [exact (NO _ _ G)|destruct s; discriminate G]|].
        apply (r_open _ _ _ R) in I as (s1 & c1 & H & O). exists s1, c1. split; [left; exact H|]. intros j' x' [G|(-> & -> & X3 & ->)]; [exact (O _ _ G)|].
        apply NS in X3. subst s1. exact (NO _ _ H).
      * intros (s1 & c1 & [H|(-> & -> & -> & ->)] & O); [right|left; reflexivity]. apply (r_open _ _ _ R). exists s1, c1. split; [exact H|intros j' x' G; apply (O j' x'); left; exact G].
    + constructor; [|exact (r_nodup _ _ _ R)]. intros I. apply (r_open _ _ _ R) in I as (s1 & c1 & H & _). exact (N1 _ _ H).
Qed.
Lemma ridges_ok_ext fs ridges HR HR' : (forall k w s c, HR k w s c <-> HR' k w s c) -> ridges_ok fs ridges HR -> ridges_ok fs ridges HR'.
Proof.
  intros E R. split.
  - intros k w s c H. apply E in H. exact (r_key _ _ _ R _ _ _ _ H).
  - intros k w k' w' s c H H'. apply E in H. apply E in H'. exact (r_uniq _ _ _ R _ _ _ _ _ _ H H').
  - intros k w s c s' c' H H'. apply E in H. apply E in H'. exact (r_one _ _ _ R _ _ _ _ _ _ H H').
  - intros k w s c k' w' H H'. apply E in H. apply E in H'. exact (r_join _ _ _ R _ _ _ _ _ _ H H').
  - intros k w. rewrite (r_open _ _ _ R). split; intros (s & c & H & O); exists s, c; (split; [apply E; exact H|intros k' w' H'; apply E in H'; exact (O _ _ H')]).
  - exact (r_nodup _ _ _ R).
Qed.
(** changes outside the registered ridges, which leave the vertices alone *)
Lemma ridges_ok_frame fs fs' ridges HR : ridges_ok fs ridges HR -> (length fs <= length fs')%nat ->
  (forall k w s c, HR k w s c -> fvert (fat fs' k) = fvert (fat fs k) /\ tget w (fnbr (fat fs' k)) = tget w (fnbr (fat fs k))) -> ridges_ok fs' ridges HR.
Proof.
  intros R L F. split; try apply R.
  - intros k w s c H. destruct (r_key _ _ _ R _ _ _ _ H) as (B & N & K). split; [lia|]. split; [exact N|]. intros i. rewrite <- K, !others_in. destruct (F _ _ _ _ H) as [-> _]. reflexivity.
  - intros k w s c k' w' H H'. destruct (F _ _ _ _ H) as [_ ->]. exact (r_join _ _ _ R _ _ _ _ _ _ H H').
Qed.
Definition add_two (HR : halves) (k : nat) (v : three) (h t : nat) : halves := add_half (add_half HR k (nx v) true h) k (nx (nx v)) false t.
Lemma find_adjacent_ok fs ridges HR k v h t :
  ridges_ok fs ridges HR -> rkey fs k (nx v) h -> rkey fs k (nx (nx v)) t -> h <> t -> (forall w s c, ~ HR k w s c) ->
  (forall k' w', ~ HR k' w' true h) -> (forall k' w', ~ HR k' w' false t) ->
  exists fs' ridges', find_adjacent k v (fs, ridges) = Ok (fs', ridges') /\ ridges_ok fs' ridges' (add_two HR k v h t) /\ length fs' = length fs /\
    (forall j, same_but_nbr (fat fs' j) (fat fs j)) /\
    (forall j x, (forall s' c', ~ add_two HR k v h t j x s' c') -> tget x (fnbr (fat fs' j)) = tget x (fnbr (fat fs j))).
Proof.
  intros R K1 K2 NE N0 N1 N2.
  assert (nx v <> nx (nx v)) as NV by (destruct v; discriminate).
  assert (forall w1 c1 s1 w2 c2 s2, w1 <> w2 -> c1 <> c2 -> (forall k' w', ~ HR k' w' s1 c1) -> (forall k' w', ~ HR k' w' s2 c2) -> rkey fs k w1 c1 -> rkey fs k w2 c2 ->
    exists fs' ridges', (a <- match_ridge k w1 (fs, ridges) ;; match_ridge k w2 a) = Ok (fs', ridges') /\ ridges_ok fs' ridges' (add_half (add_half HR k w1 s1 c1) k w2 s2 c2) /\ length fs' = length fs /\
    (forall j, same_but_nbr (fat fs' j) (fat fs j)) /\
    (forall j x, (forall s' c', ~ (add_half (add_half HR k w1 s1 c1) k w2 s2 c2) j x s' c') -> tget x (fnbr (fat fs' j)) = tget x (fnbr (fat fs j)))) as GEN.
  { intros w1 c1 s1 w2 c2 s2 Nw Nc A1 A2 R1 R2.
    destruct (match_ridge_ok fs ridges HR k w1 s1 c1 R R1) as (fs1 & rd1 & -> & RO & Len & SB & NB); [intros; apply N0|exact A1|intros; apply N0|]. cbn [bind].
    destruct (match_ridge_ok fs1 rd1 _ k w2 s2 c2 RO) as (fs2 & rd2 & -> & RO2 & Len2 & SB2 & NB2).
    - destruct R2 as (B & N & K). split; [lia|]. split; [exact N|]. intros i. rewrite <- K, !others_in. destruct (SB k) as (-> & _). reflexivity.
    - intros s' c' [H|(_ & H & _)]; [exact (N0 _ _ _ H)|congruence].
    - intros k' w' [H|(_ & _ & _ & H)]; [exact (A2 _ _ H)|congruence].
    - intros w' s' [H|(_ & _ & _ & H)]; [exact (N0 _ _ _ H)|congruence].
    - exists fs2, rd2. split; [reflexivity|]. split; [exact RO2|]. split; [lia|]. split; [intros j; exact (sbn_trans _ _ _ (SB2 j) (SB j))|].
      intros j x H. rewrite NB2 by exact H. apply NB. intros s' c' G. apply (H s' c'). left. exact G. }
  destruct (GEN (nx v) h true (nx (nx v)) t false NV NE N1 N2 K1 K2) as (fsA & rdA & EA & RA & LA & SA & NA).
  destruct (GEN (nx (nx v)) t false (nx v) h true (not_eq_sym NV) (not_eq_sym NE) N2 N1 K2 K1) as (fsB & rdB & EB & RB & LB & SB & NB).
  assert (forall k' w' s c, add_half (add_half HR k (nx (nx v)) false t) k (nx v) true h k' w' s c <-> add_two HR k v h t k' w' s c) as SW by (intros; unfold add_two, add_half; tauto).
  apply (ridges_ok_ext _ _ _ _ SW) in RB.
  assert (find_adjacent k v (fs, ridges) = (a <- match_ridge k (nx v) (fs, ridges) ;; match_ridge k (nx (nx v)) a) \/
          find_adjacent k v (fs, ridges) = (a <- match_ridge k (nx (nx v)) (fs, ridges) ;; match_ridge k (nx v) a)) as [-> | ->].
  { unfold find_adjacent. destruct v; cbn [three_eqb nx bind]; [left|right|left]; try reflexivity.
    destruct (match_ridge k I0 (fs, ridges)) as [a| |]; cbn [bind]; try reflexivity. destruct (match_ridge k I1 a) as [b| |]; reflexivity. }
  - exists fsA, rdA. repeat (split; [assumption|]). exact NA.
  - exists fsB, rdB. repeat (split; [assumption|]). intros j x H. apply NB. intros s' c' G. apply (H s' c'), SW. exact G.
Qed.
End Ridge.
