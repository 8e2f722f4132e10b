(** quickhull: the walk over the facets that a new point sees. *)
From Coq Require Import List Arith Bool ZArith Reals Lra Lia Permutation.
From Verif Require Import Base LoopFacts ModelPlane ModelQuickhull SpecQuickhull ProofQhGeo ProofQhMesh ProofQhRidge.
Import ListNotations.
Local Open Scope R_scope.

Definition plane_of (eps : R) (pts : list v3r) (t : tri nat) : res (v3r * R) :=
  a <- get pts (t0 t) ;; b <- get pts (t1 t) ;; c <- get pts (t2 t) ;; hyperplane eps a b c.
Lemma set_plane_of eps pts f n d : plane_of eps pts (fvert f) = Ok (n, d) -> set_plane eps pts f = Ok (Facet (fvert f) (fnbr f) (fout f) (fcop f) n d).
Proof.
  unfold plane_of, set_plane. destruct (get pts (t0 (fvert f))); cbn [bind]; try discriminate. destruct (get pts (t1 (fvert f))); cbn [bind]; try discriminate.
  destruct (get pts (t2 (fvert f))); cbn [bind]; try discriminate. intros ->. reflexivity.
Qed.
Lemma fat_set_nth fs k x : (k < length fs)%nat -> exists fs', set_nth fs k x = Ok fs' /\ length fs' = length fs /\ forall j, fat fs' j = if Nat.eqb j k then x else fat fs j.
Proof. intros B. destruct (set_nth_ok fs k x B) as (fs' & E & L & N). exists fs'. split; [exact E|]. split; [exact L|]. intros j. apply N. Qed.
Lemma get_fat fs k : (k < length fs)%nat -> get fs k = Ok (fat fs k).
Proof. apply get_ok. Qed.

Lemma new_tri_others t v q w f : (forall x y, tget x t = tget y t -> x = y) -> ~ InT q t -> fvert f = tset v q t -> w <> v ->
  forall i, In i (others f w) <-> i = q \/ i = tget (if three_eqb w (nx v) then nx (nx v) else nx v) t.
Proof.
  intros D Q E W i. rewrite others_in, E.
  assert (q <> t0 t) as Q0 by (intros ->; apply Q; exists I0; reflexivity).
  assert (q <> t1 t) as Q1 by (intros ->; apply Q; exists I1; reflexivity).
  assert (q <> t2 t) as Q2 by (intros ->; apply Q; exists I2; reflexivity).
  assert (t0 t <> t1 t) as D01 by (intros X; discriminate (D I0 I1 X)).
  assert (t0 t <> t2 t) as D02 by (intros X; discriminate (D I0 I2 X)).
  assert (t1 t <> t2 t) as D12 by (intros X; discriminate (D I1 I2 X)).
  rewrite (InT_side i _ v).
  destruct v, w; try contradiction; cbn [three_eqb nx tget tset t0 t1 t2]; split; intros H; try (destruct H as [[H|[H|H]] N]; subst; auto; congruence);
    destruct H as [H|H]; subst; split; auto.
Qed.

Section NewFacet.
Variables (eps : R) (pts : list v3r) (q : nat).
Lemma new_facet_run s f v g HR t n d :
  let fs := facets (wh s) in
  (f < length fs)%nat -> fvert (fat fs f) = t -> (g < length fs)%nat -> g <> f ->
  (forall k rem, removed (wh s) = k :: rem -> (k < length fs)%nat /\ k <> g /\ k <> f /\ fout (fat fs k) = [] /\ forall w s c, ~ HR k w s c) ->
  plane_of eps pts (tset v q t) = Ok (n, d) -> (forall x y, tget x t = tget y t -> x = y) -> ~ InT q t ->
  ridges_ok q fs (wridges s) HR -> (forall w s c, ~ HR g w s c) ->
  (forall k' w', ~ HR k' w' true (tget (nx (nx v)) t)) -> (forall k' w', ~ HR k' w' false (tget (nx v) t)) ->
  exists k rem' fs' ridges',
    new_facet eps pts q f v g s = Ok (Walk (QH fs' rem' (ranking (wh s)) (outside (wh s))) (wnew s ++ [k]) ridges' (wvisited s) (wvisible s)) /\
    ((removed (wh s) = [] /\ rem' = [] /\ k = length fs /\ length fs' = S (length fs)) \/ (removed (wh s) = k :: rem' /\ length fs' = length fs)) /\
    ridges_ok q fs' ridges' (add_two HR k v (tget (nx (nx v)) t) (tget (nx v) t)) /\
    (forall j, j <> k -> same_but_nbr (fat fs' j) (fat fs j)) /\
    fvert (fat fs' k) = tset v q t /\ fout (fat fs' k) = [] /\ fnorm (fat fs' k) = n /\ fD (fat fs' k) = d /\ tget v (fnbr (fat fs' k)) = g /\
    (forall j x, j <> k -> (forall s c, ~ HR j x s c) -> tget x (fnbr (fat fs' j)) = tget x (if Nat.eqb j g then replace_first f k (fnbr (fat fs g)) else fnbr (fat fs j))).
Proof.
  intros fs Bf Et Bg Ngf Hrem PL Dt Qt RO HRg N1 N2. unfold new_facet. fold fs. rewrite (get_fat fs f Bf). cbn [bind]. rewrite Et.
  assert (exists k h, add_facet t v q g (wh s) = Ok (k, h) /\ ranking h = ranking (wh s) /\ outside h = outside (wh s) /\
     ((removed (wh s) = [] /\ removed h = [] /\ k = length fs /\ length (facets h) = S (length fs)) \/ (removed (wh s) = k :: removed h /\ length (facets h) = length fs)) /\
     (k < length (facets h))%nat /\ k <> g /\ k <> f /\ (forall w s c, ~ HR k w s c) /\
     (forall j, j <> k -> fat (facets h) j = fat fs j) /\ fvert (fat (facets h) k) = tset v q t /\ fout (fat (facets h) k) = [] /\ tget v (fnbr (fat (facets h) k)) = g) as (k & h & -> & ER & EO & CA & Bk & Nkg & Nkf & HRk & Fo & V1 & O1 & G1).
  { unfold add_facet. fold fs. destruct (removed (wh s)) as [|k rem] eqn:Er.
    - eexists _, _. split; [reflexivity|]. cbn [ranking outside removed facets]. rewrite app_length. cbn [length].
      repeat (split; [first [reflexivity|lia]|]). split; [left; repeat split; lia|]. split; [lia|]. split; [lia|]. split; [lia|].
      split; [intros w s0 c H; destruct (r_key _ _ _ _ RO _ _ _ _ H) as (B & _); lia|].
      unfold fat. rewrite nth_middle. cbn [fvert fout fnbr]. split; [|split; [reflexivity|split; [reflexivity|apply tget_same]]].
      intros j Nj. destruct (Nat.lt_ge_cases j (length fs)) as [L|L]; [rewrite app_nth1 by exact L; reflexivity|].
      rewrite !nth_overflow; [reflexivity|lia|rewrite app_length; cbn [length]; lia].
    - destruct (Hrem k rem eq_refl) as (B & A1 & A2 & A3 & A4). rewrite (get_fat fs k B). cbn [bind].
      destruct (fat_set_nth fs k (Facet (tset v q t) (tset v g (fnbr (fat fs k))) (fout (fat fs k)) (fcop (fat fs k)) (fnorm (fat fs k)) (fD (fat fs k))) B) as (fs' & -> & Len & Nth). cbn [bind].
      eexists _, _. split; [reflexivity|]. cbn [ranking outside removed facets]. split; [reflexivity|]. split; [reflexivity|]. split; [right; split; [reflexivity|exact Len]|].
      split; [lia|]. repeat (split; [assumption|]). split; [intros j Nj; rewrite Nth; destruct (Nat.eqb_spec j k); [contradiction|reflexivity]|].
      rewrite Nth, Nat.eqb_refl. cbn [fvert fout fnbr]. split; [reflexivity|]. split; [exact A3|apply tget_same]. }
  cbn [bind]. rewrite (get_fat (facets h) k Bk). cbn [bind]. rewrite (set_plane_of _ _ _ n d) by (rewrite V1; exact PL). cbn [bind]. rewrite V1, O1.
  destruct (fat_set_nth (facets h) k (Facet (tset v q t) (fnbr (fat (facets h) k)) [] (fcop (fat (facets h) k)) n d) Bk) as (fs1 & -> & Len1 & F1). cbn [bind].
  assert (length fs <= length (facets h))%nat as LE by (destruct CA as [(_ & _ & _ & X)|(_ & X)]; lia).
  unfold replace_neighbour. destruct (Nat.eqb_spec f k) as [X|_]; [congruence|]. rewrite (get_fat fs1 g) by (rewrite Len1; lia). cbn [bind].
  destruct (fat_set_nth fs1 g (with_nbr (fat fs1 g) (replace_first f k (fnbr (fat fs1 g))))) as (fs2 & -> & Len2 & F2); [rewrite Len1; lia|]. cbn [bind].
  assert (fat fs1 g = fat fs g) as Eg by (rewrite F1; destruct (Nat.eqb_spec g k); [congruence|apply Fo; congruence]).
  assert (fat fs2 k = Facet (tset v q t) (fnbr (fat (facets h) k)) [] (fcop (fat (facets h) k)) n d) as Ek by (rewrite F2; destruct (Nat.eqb_spec k g); [contradiction|]; rewrite F1, Nat.eqb_refl; reflexivity).
  assert (forall j, j <> k -> fat fs2 j = if Nat.eqb j g then with_nbr (fat fs g) (replace_first f k (fnbr (fat fs g))) else fat fs j) as Fj.
  { intros j Nj. rewrite F2, Eg. destruct (Nat.eqb_spec j g); [reflexivity|]. rewrite F1. destruct (Nat.eqb_spec j k); [contradiction|]. apply Fo. exact Nj. }
  assert (ridges_ok q fs2 (wridges s) HR) as RO2.
  { apply (ridges_ok_frame q fs fs2 _ _ RO); [lia|]. intros j w s0 c H. assert (j <> k) as Nj by (intros ->; exact (HRk _ _ _ H)). assert (j <> g) as Ng by (intros ->; exact (HRg _ _ _ H)).
    rewrite (Fj j Nj). destruct (Nat.eqb_spec j g); [contradiction|]. split; reflexivity. }
  assert (forall w, w <> v -> rkey q fs2 k w (tget (if three_eqb w (nx v) then nx (nx v) else nx v) t)) as RK.
  { intros w W. split; [lia|]. split; [intros X; apply Qt; eexists; exact X|]. apply (new_tri_others t v q w (fat fs2 k) Dt Qt); [rewrite Ek; reflexivity|exact W]. }
  destruct (find_adjacent_ok q fs2 (wridges s) HR k v (tget (nx (nx v)) t) (tget (nx v) t) RO2) as (fs3 & rd & -> & RO3 & Len3 & SB & NB).
  - assert (nx v <> v) as W by (destruct v; discriminate). specialize (RK _ W). destruct v; exact RK.
  - assert (nx (nx v) <> v) as W by (destruct v; discriminate). specialize (RK _ W). destruct v; exact RK.
  - intros X. apply Dt in X. destruct v; discriminate X.
  - exact HRk.
  - exact N1.
  - exact N2.
  - cbn [bind]. rewrite ER, EO. exists k, (removed h), fs3, rd. split; [reflexivity|]. split.
    { destruct CA as [(X1 & X2 & X3 & X4)|(X1 & X2)]; [left; repeat split; try assumption; lia|right; split; [exact X1|lia]]. }
    split; [exact RO3|]. split.
    { intros j Nj. apply (sbn_trans _ _ _ (SB j)). rewrite (Fj j Nj). destruct (Nat.eqb_spec j g) as [->|]; [repeat split|apply sbn_refl]. }
    destruct (SB k) as (-> & -> & -> & ->). rewrite Ek. cbn [fvert fout fnorm fD]. repeat (split; [reflexivity|]). split.
    { rewrite NB; [rewrite Ek; exact G1|]. intros s' c' [[H|(_ & H & _)]|(_ & H & _)]; [exact (HRk _ _ _ H)| |]; destruct v; discriminate H. }
    intros j x Nj H. rewrite NB; [rewrite (Fj j Nj); destruct (Nat.eqb_spec j g); reflexivity|].
    intros s' c' [[G|(G & _)]|(G & _)]; [exact (H _ _ G)|contradiction|contradiction].
Qed.
End NewFacet.

Definition entry := (nat * three * nat)%type.
Definition pt (pts : list v3r) (i : nat) : v3r := nth i pts (RV 0 0 0).

Section Walk.
Variables (eps : R) (pts : list v3r) (Q : nat -> v3r) (q : nat) (fs0 : list facet) (rem0 : list nat) (rank0 : list (R * nat)) (out0 : list nat) (L0 : list nat).
Let n := length pts.
Let P := pt pts.
Let vt0 (k : nat) : tri nat := fvert (fat fs0 k).
Let nb0 (k : nat) (v : three) : nat := tget v (fnbr (fat fs0 k)).
Let Vis := vis Q vt0 q.
Let Hor := hor Q L0 vt0 nb0 q.
Let Head := head vt0.
Let Tail := tail vt0.
Hypothesis M : mesh Q n L0 vt0 nb0.
Hypothesis Bq : (q < n)%nat.
Hypothesis Nq : forall f, In f L0 -> ~ InT q (vt0 f).
Hypothesis NZ : forall f, In f L0 -> VT Q (vt0 f) (Q q) <> 0.
Hypothesis Hsee : forall k, In k L0 -> (0 < distance (fat fs0 k) (P q) <-> Vis k).
Hypothesis Hplane : forall f v, Hor f v -> exists nd, plane_of eps pts (nt vt0 q f v) = Ok nd.

(** the ridges that the new facets have registered *)
Definition reg (N : list entry) : halves := fun k w s c =>
  exists f v, In (f, v, k) N /\ ((s = true /\ w = nx v /\ c = Head f v) \/ (s = false /\ w = nx (nx v) /\ c = Tail f v)).

Record walk_ok (s : walk) (N : list entry) (fin : list nat) : Prop := {
  i_vd : incl (wvisited s) L0;
  i_vn : NoDup (wvisited s);
  i_vs : forall k, In k (wvisible s) <-> In k (wvisited s) /\ Vis k;
  i_vsn : NoDup (wvisible s);
  i_fin : incl fin (wvisible s);
  i_new : wnew s = map snd N;
  i_N : forall f v k, In (f, v, k) N -> In f (wvisible s) /\ ~ Vis (nb0 f v);
  i_fun : forall f v k k', In (f, v, k) N -> In (f, v, k') N -> k = k';
  i_slots : NoDup (map snd N);
  i_dom : forall k, (k < length (facets (wh s)))%nat <-> (In k L0 /\ ~ In k fin) \/ In k (removed (wh s)) \/ In k (map snd N);
  i_d1 : forall k, In k (removed (wh s)) -> In k L0 -> In k fin;
  i_d2 : forall k, In k (map snd N) -> In k L0 -> In k fin;
  i_d3 : forall k, In k (removed (wh s)) -> ~ In k (map snd N);
  i_d4 : NoDup (removed (wh s));
  i_rout : forall k, In k (removed (wh s)) -> fout (fat (facets (wh s)) k) = [];
  i_keep : forall k, In k L0 -> ~ In k fin -> let f := fat (facets (wh s)) k in fvert f = vt0 k /\ fnorm f = fnorm (fat fs0 k) /\ fD f = fD (fat fs0 k);
  i_see : forall k, In k (wvisible s) -> ~ In k fin -> let f := fat (facets (wh s)) k in fnbr f = fnbr (fat fs0 k) /\ fout f = [];
  i_hid : forall k, In k L0 -> ~ In k (wvisible s) -> fout (fat (facets (wh s)) k) = fout (fat fs0 k);
  i_hnb : forall k w, In k L0 -> ~ In k (wvisible s) ->
    (forall f v kk, In (f, v, kk) N -> edge (vt0 f) v = rev2 (edge (vt0 k) w) -> tget w (fnbr (fat (facets (wh s)) k)) = kk) /\
    ((forall f v kk, In (f, v, kk) N -> edge (vt0 f) v <> rev2 (edge (vt0 k) w)) -> tget w (fnbr (fat (facets (wh s)) k)) = nb0 k w);
  i_nw : forall f v k, In (f, v, k) N -> let g := fat (facets (wh s)) k in
    fvert g = nt vt0 q f v /\ plane_of eps pts (nt vt0 q f v) = Ok (fnorm g, fD g) /\ fout g = [] /\ tget v (fnbr g) = nb0 f v;
  i_ri : ridges_ok q (facets (wh s)) (wridges s) (reg N);
  i_done : forall k v, In k fin -> In (nb0 k v) (wvisited s) /\ (~ Vis (nb0 k v) -> exists kk, In (k, v, kk) N);
  i_out : forall i, In i (outside (wh s)) <-> In i out0 \/ exists k, In k (wvisible s) /\ In i (fout (fat fs0 k));
  i_olen : length (outside (wh s)) = (length out0 + list_sum (map (fun k => length (fout (fat fs0 k))) (wvisible s)))%nat;
  i_rank : ranking (wh s) = filter (fun e => negb (mem (snd e) fin)) rank0 }.

Lemma nb_edge f v : In f L0 -> exists w, In (nb0 f v) L0 /\ edge (vt0 (nb0 f v)) w = rev2 (edge (vt0 f) v) /\ nb0 (nb0 f v) w = f /\ ~ InT (tget v (vt0 f)) (vt0 (nb0 f v)).
Proof. intros I. destruct (side_facts _ _ _ _ _ M f v I) as (w & A & B & C & _ & _ & _ & D & _). exists w. repeat split; assumption. Qed.
Lemma nb_uniq g w w' : In g L0 -> nb0 g w = nb0 g w' -> w = w'.
Proof.
  intros I E. destruct (nb_edge g w I) as (x & A & B & C & D). destruct (nb_edge g w' I) as (x' & A' & B' & C' & D').
  destruct (three_cases w w') as [->|[X|X]]; [reflexivity| |]; exfalso; apply D; rewrite E; unfold edge, rev2 in B'; cbn [fst snd] in B'; injection B' as B1 B2.
  - exists (nx x'). rewrite B1, X, nx3. reflexivity.
  - exists (nx (nx x')). rewrite B2, X, nx3. reflexivity.
Qed.
Lemma nb_of_edge f v k w : In f L0 -> In k L0 -> edge (vt0 f) v = rev2 (edge (vt0 k) w) -> nb0 f v = k.
Proof.
  intros I K E. destruct (nb_edge f v I) as (x & A & B & _). rewrite E, rev2_rev2 in B. exact (proj1 (m_inj _ _ _ _ _ M _ _ _ _ A K B)).
Qed.
Lemma nb_ne f v : In f L0 -> nb0 f v <> f.
Proof. intros I E. destruct (nb_edge f v I) as (x & _ & _ & _ & D). rewrite E in D. apply D. eexists; reflexivity. Qed.
Lemma N_hor s N fin f v k : walk_ok s N fin -> In (f, v, k) N -> Hor f v.
Proof. intros W I. destruct (i_N _ _ _ W _ _ _ I) as [A B]. apply (i_vs _ _ _ W) in A as [A A']. split; [exact (i_vd _ _ _ W _ A)|]. split; assumption. Qed.
Lemma N_slot (N : list entry) f v k f' v' : NoDup (map snd N) -> In (f, v, k) N -> In (f', v', k) N -> f = f' /\ v = v'.
Proof.
  induction N as [|[[a b] c] N IH]; cbn [map snd In]; intros D H H'; [destruct H|]. inversion D as [|x l NI D']; subst.
  destruct H as [H|H]; destruct H' as [H'|H'].
  - injection H as -> -> ->. injection H' as -> ->. split; reflexivity.
  - injection H as -> -> ->. exfalso. apply NI. apply in_map_iff. exists (f', v', k). split; [reflexivity|exact H'].
  - injection H' as -> -> ->. exfalso. apply NI. apply in_map_iff. exists (f, v, k). split; [reflexivity|exact H].
  - exact (IH D' H H').
Qed.
Lemma in_slots (N : list entry) (f : nat) (v : three) (k : nat) : In (f, v, k) N -> In k (map snd N).
Proof. intros H. apply in_map_iff. exists (f, v, k). split; [reflexivity|exact H]. Qed.

Lemma live_bound s N fin k : walk_ok s N fin -> In k L0 -> ~ In k fin -> (k < length (facets (wh s)))%nat.
Proof. intros W I J. apply (i_dom _ _ _ W). left. split; assumption. Qed.
Lemma not_visible_not_fin s N fin k : walk_ok s N fin -> ~ In k (wvisible s) -> ~ In k fin.
Proof. intros W I J. exact (I (i_fin _ _ _ W _ J)). Qed.

Lemma replace_first_at f k t w : tget w t = f -> (forall x, tget x t = f -> x = w) -> forall x, tget x (replace_first f k t) = if three_eqb x w then k else tget x t.
Proof.
  intros E U x. unfold replace_first. destruct (Nat.eqb_spec (t0 t) f) as [A|A]; [pose proof (U I0 A) as <-; destruct x; reflexivity|].
  destruct (Nat.eqb_spec (t1 t) f) as [B|B]; [pose proof (U I1 B) as <-; destruct x; reflexivity|].
  destruct (Nat.eqb_spec (t2 t) f) as [C|C]; [pose proof (U I2 C) as <-; destruct x; reflexivity|].
  destruct w; contradiction.
Qed.

Lemma new_facet_ok s N fin f v : walk_ok s N fin -> In f (wvisible s) -> ~ In f fin -> ~ Vis (nb0 f v) -> In (nb0 f v) (wvisited s) -> (forall k, ~ In (f, v, k) N) ->
  exists s' k, new_facet eps pts q f v (nb0 f v) s = Ok s' /\ walk_ok s' (N ++ [(f, v, k)]) fin /\ wvisited s' = wvisited s /\ wvisible s' = wvisible s.
Proof.
  intros W If Nf NV Iv NN. pose proof (i_vs _ _ _ W f) as [A _]. destruct (A If) as [Vf Sf]. pose proof (i_vd _ _ _ W _ Vf) as Lf. set (g := nb0 f v).
  assert (In g L0) as Lg by (apply (i_vd _ _ _ W); exact Iv). assert (~ In g (wvisible s)) as Ng by (intros X; apply (i_vs _ _ _ W) in X as [_ X]; exact (NV X)).
  pose proof (not_visible_not_fin _ _ _ _ W Ng) as Fg. assert (Hor f v) as HF by (split; [exact Lf|split; assumption]).
  destruct (Hplane f v HF) as [[nn dd] PL]. destruct (i_keep _ _ _ W f Lf Nf) as (Ev & _).
  assert (forall k w s0 c, reg N k w s0 c -> In k (map snd N)) as RS by (intros k w s0 c (f' & v' & I & _); exact (in_slots _ _ _ _ I)).
  destruct (new_facet_run eps pts q s f v g (reg N) (vt0 f) nn dd) as (k & rem' & fs' & rd & E & CA & RO & SB & V1 & O1 & N1 & D1 & G1 & NB).
  - exact (live_bound _ _ _ _ W Lf Nf).
  - exact Ev.
  - exact (live_bound _ _ _ _ W Lg Fg).
  - exact (nb_ne f v Lf).
  - intros k rem Er. assert (In k (removed (wh s))) as Ik by (rewrite Er; left; reflexivity). split; [apply (i_dom _ _ _ W); right; left; exact Ik|].
    split; [intros ->; exact (Fg (i_d1 _ _ _ W _ Ik Lg))|]. split; [intros ->; exact (Nf (i_d1 _ _ _ W _ Ik Lf))|]. split; [exact (i_rout _ _ _ W _ Ik)|].
    intros w s0 c H. exact (i_d3 _ _ _ W _ Ik (RS _ _ _ _ H)).
  - exact PL.
  - apply (m_tri _ _ _ _ _ M f Lf).
  - exact (Nq f Lf).
  - exact (i_ri _ _ _ W).
  - intros w s0 c H. exact (Fg (i_d2 _ _ _ W _ (RS _ _ _ _ H) Lg)).
  - intros k' w' (f' & v' & I & [(_ & _ & X)|(X & _)]); [|discriminate]. 
    destruct (hor_head Q n L0 vt0 nb0 M q Nq NZ f v f' v' HF (N_hor _ _ _ _ _ _ W I) X) as [<- <-]. exact (NN _ I).
  - intros k' w' (f' & v' & I & [(X & _)|(_ & _ & X)]); [discriminate|]. 
    destruct (hor_tail Q n L0 vt0 nb0 M q Nq NZ f v f' v' HF (N_hor _ _ _ _ _ _ W I) X) as [<- <-]. exact (NN _ I).
  - exists (Walk (QH fs' rem' (ranking (wh s)) (outside (wh s))) (wnew s ++ [k]) rd (wvisited s) (wvisible s)), k. split; [exact E|]. split; [|split; reflexivity].
    assert (~ In k (map snd N)) as Fk.
    { intros X. destruct CA as [(_ & _ & -> & _)|(Er & _)]; [|apply (i_d3 _ _ _ W k); [rewrite Er; left; reflexivity|exact X]].
      assert (length (facets (wh s)) < length (facets (wh s)))%nat as Y by (apply (i_dom _ _ _ W); right; right; exact X). lia. }
    assert (In k L0 -> In k fin) as Fk2.
    { intros X. destruct (in_dec Nat.eq_dec k fin) as [Y|Y]; [exact Y|]. destruct CA as [(_ & _ & -> & _)|(Er & _)]; [|apply (i_d1 _ _ _ W k); [rewrite Er; left; reflexivity|exact X]].
      pose proof (live_bound _ _ _ _ W X Y). lia. }
    assert (forall j, In j L0 -> ~ In j fin -> j <> k) as LK by (intros j X Y ->; exact (Y (Fk2 X))).
    assert (forall j, In j (map snd N) -> j <> k) as SK by (intros j X ->; exact (Fk X)).
    assert (forall j, In j rem' -> In j (removed (wh s)) /\ j <> k) as RK.
    { intros j X. destruct CA as [(_ & -> & _)|(Er & _)]; [destruct X|]. pose proof (i_d4 _ _ _ W) as ND. rewrite Er in *. inversion ND; subst. split; [right; exact X|]. intros ->. contradiction. }
    assert (forall j, In j (removed (wh s)) -> In j rem' \/ j = k) as RK2.
    { intros j X. destruct CA as [(Er & _)|(Er & _)]; rewrite Er in X; [destruct X|]. destruct X as [X|X]; [right; congruence|left; exact X]. }
    assert (forall f' v' k', In (f', v', k') (N ++ [(f, v, k)]) -> In (f', v', k') N \/ (f' = f /\ v' = v /\ k' = k)) as NA.
    { intros f' v' k' H. apply in_app_iff in H as [H|[H|[]]]; [left; exact H|right]. injection H as <- <- <-. repeat split. }
    assert (forall j x, In j L0 -> ~ In j fin -> tget x (fnbr (fat fs' j)) = tget x (if Nat.eqb j g then replace_first f k (fnbr (fat (facets (wh s)) g)) else fnbr (fat (facets (wh s)) j))) as NBL.
    { intros j x X Y. apply NB; [exact (LK _ X Y)|]. intros s0 c H. exact (Y (i_d2 _ _ _ W _ (RS _ _ _ _ H) X)). }
    assert (g <> f) as Ngf by exact (nb_ne f v Lf).
    split; cbn [wh wnew wridges wvisited wvisible facets removed ranking outside].
    + exact (i_vd _ _ _ W).
    + exact (i_vn _ _ _ W).
    + exact (i_vs _ _ _ W).
    + exact (i_vsn _ _ _ W).
    + exact (i_fin _ _ _ W).
    + rewrite map_app, (i_new _ _ _ W). reflexivity.
    + intros f' v' k' H. apply NA in H as [H|(-> & -> & ->)]; [exact (i_N _ _ _ W _ _ _ H)|split; assumption].
    + intros f' v' k1 k2 H1 H2. apply NA in H1 as [H1|(-> & -> & ->)]; apply NA in H2 as [H2|(X1 & X2 & X3)].
      * exact (i_fun _ _ _ W _ _ _ _ H1 H2).
      * subst. exfalso. exact (NN _ H1).
      * exfalso. exact (NN _ H2).
      * congruence.
    + rewrite map_app. cbn [map snd]. apply (Permutation_NoDup (Permutation_cons_append (map snd N) k)). constructor; [exact Fk|exact (i_slots _ _ _ W)].
    + intros j. rewrite map_app, in_app_iff. cbn [map snd In]. pose proof (i_dom _ _ _ W j) as DJ.
      destruct CA as [(Er & -> & -> & ->)|(Er & ->)]; rewrite Er in DJ; cbn [In] in *.
      * split; [intros H; destruct (Nat.eq_dec j (length (facets (wh s)))) as [->|]; [tauto|]; assert (j < length (facets (wh s)))%nat as H' by lia; tauto|].
        intros H. assert (In j L0 /\ ~ In j fin \/ False \/ In j (map snd N) \/ length (facets (wh s)) = j) as [H'|[[]|[H'|H']]] by (clear - H; tauto); try lia; assert (j < length (facets (wh s)))%nat by (clear - H' DJ; tauto); lia.
      * rewrite DJ. clear. tauto.
    + intros j H. apply RK in H as [H _]. exact (i_d1 _ _ _ W _ H).
    + intros j H. rewrite map_app, in_app_iff in H. destruct H as [H|[<-|[]]]; [exact (i_d2 _ _ _ W _ H)|exact Fk2].
    + intros j H. apply RK in H as [H Nj]. rewrite map_app, in_app_iff. intros [X|[X|[]]]; [exact (i_d3 _ _ _ W _ H X)|cbn [snd] in X; congruence].
    + pose proof (i_d4 _ _ _ W) as ND. destruct CA as [(Er & -> & _)|(Er & _)]; [constructor|]. rewrite Er in ND. inversion ND; assumption.
    + intros j H. apply RK in H as [H Nj]. destruct (SB j Nj) as (_ & -> & _). exact (i_rout _ _ _ W _ H).
    + intros j X Y. destruct (SB j (LK _ X Y)) as (-> & _ & -> & ->). exact (i_keep _ _ _ W j X Y).
    + intros j X Y. assert (In j L0) as Lj by (apply (i_vs _ _ _ W) in X as [X _]; exact (i_vd _ _ _ W _ X)). destruct (i_see _ _ _ W j X Y) as [A1 A2].
      destruct (SB j (LK _ Lj Y)) as (_ & -> & _). split; [|exact A2]. apply tri_ext. intros x. rewrite (NBL j x Lj Y). destruct (Nat.eqb_spec j g) as [->|]; [contradiction|]. rewrite A1. reflexivity.
    + intros j X Y. pose proof (not_visible_not_fin _ _ _ _ W Y) as Z. destruct (SB j (LK _ X Z)) as (_ & -> & _). exact (i_hid _ _ _ W j X Y).
    + intros j w X Y. pose proof (not_visible_not_fin _ _ _ _ W Y) as Z. rewrite (NBL j w X Z). destruct (i_hnb _ _ _ W j w X Y) as [H1 H2].
      destruct (Nat.eqb_spec j g) as [->|Njg].
      * destruct (nb_edge f v Lf) as (w0 & _ & B0 & C0 & _). fold g in B0, C0.
        assert (forall x, tget x (fnbr (fat (facets (wh s)) g)) = f <-> x = w0) as U.
        { intros x. destruct (i_hnb _ _ _ W g x Lg Ng) as [K1 K2]. split.
          - intros X1. apply (nb_uniq g); [exact Lg|]. rewrite C0.
            assert ((exists f' v' kk, In (f', v', kk) N /\ edge (vt0 f') v' = rev2 (edge (vt0 g) x)) \/ (forall f' v' kk, In (f', v', kk) N -> edge (vt0 f') v' <> rev2 (edge (vt0 g) x))) as [(f' & v' & kk & I & E1)|K].
            { clear. induction N as [|[[a b] c] l IH]; [right; intros f' v' kk []|]. destruct (Nat.eq_dec (fst (edge (vt0 a) b)) (fst (rev2 (edge (vt0 g) x)))) as [E1|E1].
              - destruct (Nat.eq_dec (snd (edge (vt0 a) b)) (snd (rev2 (edge (vt0 g) x)))) as [E2|E2].
                + left. exists a, b, c. split; [left; reflexivity|]. destruct (edge (vt0 a) b), (rev2 (edge (vt0 g) x)). cbn in *. congruence.
                + destruct IH as [(f' & v' & kk & I & E3)|K]; [left; exists f', v', kk; split; [right; exact I|exact E3]|right]. intros f' v' kk [I|I]; [injection I as <- <- <-; congruence|exact (K _ _ _ I)].
              - destruct IH as [(f' & v' & kk & I & E3)|K]; [left; exists f', v', kk; split; [right; exact I|exact E3]|right]. intros f' v' kk [I|I]; [injection I as <- <- <-; congruence|exact (K _ _ _ I)]. }
            + pose proof (K1 _ _ _ I E1) as X2. rewrite X1 in X2. subst kk. exfalso. exact (Nf (i_d2 _ _ _ W _ (in_slots _ _ _ _ I) Lf)).
            + rewrite <- (K2 K). exact X1.
          - intros ->. rewrite K2; [exact C0|]. intros f' v' kk I E1. assert (edge (vt0 f') v' = edge (vt0 f) v) as E2 by (rewrite E1, B0, rev2_rev2; reflexivity).
            assert (In f' L0) as Lf' by (apply (i_N _ _ _ W) in I as [I _]; apply (i_vs _ _ _ W) in I as [I _]; exact (i_vd _ _ _ W _ I)).
            destruct (m_inj _ _ _ _ _ M _ _ _ _ Lf' Lf E2) as [-> ->]. exact (NN _ I). }
        rewrite (replace_first_at f k _ w0 (proj2 (U w0) eq_refl) (fun x => proj1 (U x))).
        assert (three_eqb w w0 = true <-> w = w0) as TE by (destruct w, w0; cbn; split; congruence).
        assert (forall f' v' kk, In (f', v', kk) N -> edge (vt0 f') v' = rev2 (edge (vt0 g) w0) -> False) as NO.
        { intros f' v' kk I E1. assert (edge (vt0 f') v' = edge (vt0 f) v) as E2 by (rewrite E1, B0, rev2_rev2; reflexivity).
          destruct (N_hor _ _ _ _ _ _ W I) as (Lf' & _). destruct (m_inj _ _ _ _ _ M _ _ _ _ Lf' Lf E2) as [-> ->]. exact (NN _ I). }
        split.
        -- intros f' v' kk H E1. apply NA in H as [H|(-> & -> & ->)].
           ++ destruct (three_eqb w w0) eqn:T; [assert (w = w0) by (apply TE; reflexivity); subst w; exfalso; exact (NO _ _ _ H E1)|]. exact (H1 _ _ _ H E1).
           ++ assert (w = w0) as ->; [|destruct w0; reflexivity]. assert (edge (vt0 g) w = edge (vt0 g) w0) as E2 by (rewrite B0, E1, rev2_rev2; reflexivity).
              exact (proj2 (m_inj _ _ _ _ _ M _ _ _ _ Lg Lg E2)).
        -- intros K. destruct (three_eqb w w0) eqn:T; [assert (w = w0) by (apply TE; reflexivity); subst w; exfalso|].
           ++ apply (K f v k); [apply in_or_app; right; left; reflexivity|]. rewrite B0, rev2_rev2. reflexivity.
           ++ apply H2. intros f' v' kk I. apply (K f' v' kk). apply in_or_app. left. exact I.
      * split.
        -- intros f' v' kk H E1. apply NA in H as [H|(-> & -> & ->)]; [exact (H1 _ _ _ H E1)|]. exfalso. apply Njg. symmetry. exact (nb_of_edge f v j w Lf X E1).
        -- intros K. apply H2. intros f' v' kk I. apply (K f' v' kk). apply in_or_app. left. exact I.
    + intros f' v' k' H. apply NA in H as [H|(-> & -> & ->)].
      * destruct (i_nw _ _ _ W _ _ _ H) as (B1 & B2 & B3 & B4). pose proof (SK _ (in_slots _ _ _ _ H)) as Nk. destruct (SB k' Nk) as (-> & -> & -> & ->).
        repeat (split; [assumption|]). rewrite NB; [|exact Nk|].
        -- destruct (Nat.eqb_spec k' g) as [->|]; [|exact B4]. exfalso. exact (Fg (i_d2 _ _ _ W _ (in_slots _ _ _ _ H) Lg)).
        -- intros s0 c (f2 & v2 & I2 & X). destruct (N_slot N _ _ _ _ _ (i_slots _ _ _ W) H I2) as [<- <-]. destruct X as [(_ & X & _)|(_ & X & _)]; destruct v'; discriminate X.
      * rewrite N1, D1. repeat split; assumption.
    + apply (ridges_ok_ext q _ _ (add_two (reg N) k v (tget (nx (nx v)) (vt0 f)) (tget (nx v) (vt0 f)))); [|exact RO].
      intros j w s0 c. unfold add_two, add_half, reg. split.
      * intros [[(f' & v' & I & X)|(-> & -> & -> & ->)]|(-> & -> & -> & ->)].
        -- exists f', v'. split; [apply in_or_app; left; exact I|exact X].
        -- exists f, v. split; [apply in_or_app; right; left; reflexivity|]. left. repeat split.
        -- exists f, v. split; [apply in_or_app; right; left; reflexivity|]. right. repeat split.
      * intros (f' & v' & I & X). apply NA in I as [I|(-> & -> & ->)]; [left; left; exists f', v'; split; assumption|].
        destruct X as [(-> & -> & ->)|(-> & -> & ->)]; [left; right|right]; repeat split.
    + intros j w X. destruct (i_done _ _ _ W j w X) as [A1 A2]. split; [exact A1|]. intros Y. destruct (A2 Y) as [kk H]. exists kk. apply in_or_app. left. exact H.
    + exact (i_out _ _ _ W).
    + exact (i_olen _ _ _ W).
    + exact (i_rank _ _ _ W).
Qed.

Lemma mem_in k l : mem k l = true <-> In k l.
Proof.
  unfold mem. rewrite existsb_exists. split; [intros (x & I & E); apply Nat.eqb_eq in E; subst; exact I|]. intros I. exists k. split; [exact I|apply Nat.eqb_refl].
Qed.
Lemma vis_more s N fin s' N' fin' k : walk_ok s N fin -> walk_ok s' N' fin' -> incl (wvisited s) (wvisited s') -> In k (wvisible s) -> In k (wvisible s').
Proof. intros W W' I H. apply (i_vs _ _ _ W) in H as [H V]. apply (i_vs _ _ _ W'). split; [exact (I _ H)|exact V]. Qed.
(** what a part of the walk may change; [X]: the sides it makes facets for *)
Definition ext (X : nat -> three -> Prop) (s : walk) (N : list entry) (fin : list nat) (s' : walk) (N' : list entry) (fin' : list nat) : Prop :=
  incl (wvisited s) (wvisited s') /\ incl N N' /\ incl fin fin' /\ (forall k, In k (wvisible s) -> In k fin' -> In k fin) /\
  (forall k, In k (wvisible s') -> In k (wvisible s) \/ In k fin') /\ (forall f v k, In (f, v, k) N' -> In (f, v, k) N \/ ~ In f (wvisible s) \/ X f v).
Lemma ext_trans X Y s N fin s1 N1 fin1 s2 N2 fin2 : walk_ok s N fin -> walk_ok s1 N1 fin1 ->
  ext X s N fin s1 N1 fin1 -> ext Y s1 N1 fin1 s2 N2 fin2 -> ext (fun f v => X f v \/ Y f v) s N fin s2 N2 fin2.
Proof.
  intros W W1 (A1 & A2 & A3 & A4 & A5 & A6) (B1 & B2 & B3 & B4 & B5 & B6). split; [intros k H; apply B1, A1, H|]. split; [intros k H; apply B2, A2, H|]. split; [intros k H; apply B3, A3, H|].
  split; [intros k H H2; apply A4; [exact H|]; apply B4; [exact (vis_more _ _ _ _ _ _ _ W W1 A1 H)|exact H2]|].
  split; [intros k H; destruct (B5 k H) as [H1|H1]; [destruct (A5 k H1) as [H2|H2]; [left; exact H2|right; exact (B3 _ H2)]|right; exact H1]|].
  intros f v k H. destruct (B6 f v k H) as [H1|[H1|H1]]; [destruct (A6 f v k H1) as [H2|[H2|H2]]; tauto| |tauto]. right. left. intros H2. apply H1. exact (vis_more _ _ _ _ _ _ _ W W1 A1 H2).
Qed.
Definition none (f : nat) (v : three) : Prop := False.
Definition visits (visit : nat -> walk -> res (bool * walk)) (d : nat) : Prop := forall f s N fin, walk_ok s N fin -> In f L0 -> (length L0 < d + length (wvisited s))%nat ->
  exists b s' N' fin', visit f s = Ok (b, s') /\ walk_ok s' N' fin' /\ ext none s N fin s' N' fin' /\ In f (wvisited s') /\ (b = true <-> Vis f).
Lemma side_ok visit d f v s N fin : visits visit d -> walk_ok s N fin -> In f (wvisible s) -> ~ In f fin -> (forall k, ~ In (f, v, k) N) -> (length L0 < d + length (wvisited s))%nat ->
  exists s' N' fin', visit_side eps pts q f visit v s = Ok s' /\ walk_ok s' N' fin' /\ ext (fun f' v' => f' = f /\ v' = v) s N fin s' N' fin' /\
    In (nb0 f v) (wvisited s') /\ (~ Vis (nb0 f v) -> exists k, In (f, v, k) N').
Proof.
  intros IH W If Ff NN Ld. pose proof If as X. apply (i_vs _ _ _ W) in X as [Vf Sf]. pose proof (i_vd _ _ _ W _ Vf) as Lf.
  unfold visit_side. rewrite (get_fat _ f (live_bound _ _ _ _ W Lf Ff)). cbn [bind]. rewrite (proj1 (i_see _ _ _ W f If Ff)). fold (nb0 f v).
  destruct (nb_edge f v Lf) as (_ & Lg & _).
  destruct (IH (nb0 f v) s N fin W Lg Ld) as (b & s1 & N1 & fin1 & -> & W1 & E1 & V1 & B1). cbn [bind].
  assert (ext (fun f' v' => f' = f /\ v' = v) s N fin s1 N1 fin1) as E1' by (destruct E1 as (A1 & A2 & A3 & A4 & A5 & A6); repeat (split; [assumption|]); intros f' v' k H; destruct (A6 f' v' k H) as [?|[?|[]]]; tauto).
  destruct b.
  - exists s1, N1, fin1. split; [reflexivity|]. split; [exact W1|]. split; [exact E1'|]. split; [exact V1|]. intros H. exfalso. apply H, B1. reflexivity.
  - assert (~ Vis (nb0 f v)) as NV by (intros H; apply B1 in H; discriminate). destruct E1 as (A1 & A2 & A3 & A4 & A5 & A6).
    destruct (new_facet_ok s1 N1 fin1 f v W1) as (s2 & k & -> & W2 & Ev & Es).
    + exact (vis_more _ _ _ _ _ _ _ W W1 A1 If).
    + intros H. exact (Ff (A4 _ If H)).
    + exact NV.
    + exact V1.
    + intros k H. destruct (A6 f v k H) as [H1|[H1|[]]]; [exact (NN _ H1)|exact (H1 If)].
    + exists s2, (N1 ++ [(f, v, k)]), fin1. split; [reflexivity|]. split; [exact W2|]. split; [|rewrite Ev; split; [exact V1|]; intros _; exists k; apply in_or_app; right; left; reflexivity].
      destruct E1' as (B1' & B2 & B3 & B4 & B5 & B6). unfold ext. rewrite Ev, Es. split; [exact A1|]. split; [intros e H; apply in_or_app; left; exact (A2 _ H)|]. split; [exact A3|]. split; [exact A4|]. split; [exact A5|].
      intros f' v' k' H. apply in_app_iff in H as [H|[H|[]]]; [exact (B6 _ _ _ H)|]. injection H as <- <- <-. right. right. split; reflexivity.
Qed.
Lemma filter_filter {A} (p r : A -> bool) l : filter p (filter r l) = filter (fun x => r x && p x) l.
Proof. induction l as [|x l IH]; [reflexivity|]. cbn [filter]. destruct (r x); cbn [filter andb]; [destruct (p x); rewrite IH; reflexivity|exact IH]. Qed.
Lemma process_ok d : visits (process_visibles eps pts q d) d.
Proof.
  induction d as [|d IH]; intros f s N fin W Lf Ld.
  - exfalso. pose proof (NoDup_incl_length (i_vn _ _ _ W) (i_vd _ _ _ W)). lia.
  - cbn [process_visibles]. destruct (mem f (wvisited s)) eqn:Mv.
    { apply mem_in in Mv. exists (mem f (wvisible s)), s, N, fin. split; [reflexivity|]. split; [exact W|]. split; [|split; [exact Mv|rewrite mem_in, (i_vs _ _ _ W); tauto]].
      unfold ext. repeat (split; [first [apply incl_refl|intros; tauto]|]). intros; tauto. }
    assert (~ In f (wvisited s)) as Nv by (rewrite <- mem_in; congruence). clear Mv.
    assert (~ In f (wvisible s)) as Nvs by (rewrite (i_vs _ _ _ W); tauto). pose proof (not_visible_not_fin _ _ _ _ W Nvs) as Nfin.
    pose proof (live_bound _ _ _ _ W Lf Nfin) as Bf. cbn [wh wnew wridges wvisited wvisible]. rewrite (get_fat _ f Bf). cbn [bind].
    rewrite (get_ok pts q (RV 0 0 0) Bq). cbn [bind]. fold (pt pts q). fold P.
    destruct (i_keep _ _ _ W f Lf Nfin) as (Kv & Kn & KD).
    assert (distance (fat (facets (wh s)) f) (P q) = distance (fat fs0 f) (P q)) as -> by (unfold distance; rewrite Kn, KD; reflexivity).
    destruct (Rlt_dec 0 (distance (fat fs0 f) (P q))) as [Sf|Sf].
    2:{ assert (~ Vis f) as NV by (intros H; apply Sf, Hsee; assumption).
      exists false, (Walk (wh s) (wnew s) (wridges s) (f :: wvisited s) (wvisible s)), N, fin. split; [reflexivity|]. split.
      - destruct W. split; cbn [wh wnew wridges wvisited wvisible]; try assumption.
        + intros k [<-|H]; [exact Lf|exact (i_vd0 _ H)].
        + constructor; assumption.
        + intros k. rewrite i_vs0. split; [intros [A B]; split; [right; exact A|exact B]|]. intros [[<-|A] B]; [contradiction|split; assumption].
        + intros k v H. destruct (i_done0 k v H) as [A B]. split; [right; exact A|exact B].
      - split; [|split; [left; reflexivity|split; [discriminate|intros H; contradiction]]].
        unfold ext. cbn [wvisited wvisible]. split; [intros k H; right; exact H|]. repeat (split; [first [apply incl_refl|intros; tauto]|]). intros; tauto. }
    apply (Hsee _ Lf) in Sf.
    destruct (fat_set_nth (facets (wh s)) f (with_lists (fat (facets (wh s)) f) [] []) Bf) as (fs1 & -> & Len1 & F1). cbn [bind].
    set (s1 := Walk (QH fs1 (removed (wh s)) (ranking (wh s)) (outside (wh s) ++ fout (fat (facets (wh s)) f))) (wnew s) (wridges s) (f :: wvisited s) (f :: wvisible s)).
    assert (forall k, k <> f -> fat fs1 k = fat (facets (wh s)) k) as Fo by (intros k Hk; rewrite F1; destruct (Nat.eqb_spec k f); [contradiction|reflexivity]).
    assert (fat fs1 f = with_lists (fat (facets (wh s)) f) [] []) as Ff by (rewrite F1, Nat.eqb_refl; reflexivity).
    assert (~ In f (map snd N)) as Nsl by (intros H; exact (Nfin (i_d2 _ _ _ W _ H Lf))).
    assert (~ In f (removed (wh s))) as Nrem by (intros H; exact (Nfin (i_d1 _ _ _ W _ H Lf))).
    assert (forall k, fvert (fat fs1 k) = fvert (fat (facets (wh s)) k) /\ fnbr (fat fs1 k) = fnbr (fat (facets (wh s)) k)) as Fs by (intros k; rewrite F1; destruct (Nat.eqb_spec k f) as [->|]; split; reflexivity).
    assert (walk_ok s1 N fin) as W1.
    { split; cbn [s1 wh wnew wridges wvisited wvisible facets removed ranking outside].
      - intros k [<-|H]; [exact Lf|exact (i_vd _ _ _ W _ H)].
      - constructor; [exact Nv|exact (i_vn _ _ _ W)].
      - intros k. cbn [In]. rewrite (i_vs _ _ _ W k). split; [intros [<-|[A B]]; tauto|intros [[<-|A] B]; tauto].
      - constructor; [exact Nvs|exact (i_vsn _ _ _ W)].
      - intros k H. right. exact (i_fin _ _ _ W _ H).
      - exact (i_new _ _ _ W).
      - intros f' v k H. destruct (i_N _ _ _ W _ _ _ H) as [A B]. split; [right; exact A|exact B].
      - exact (i_fun _ _ _ W).
      - exact (i_slots _ _ _ W).
      - intros k. rewrite Len1. exact (i_dom _ _ _ W k).
      - exact (i_d1 _ _ _ W).
      - exact (i_d2 _ _ _ W).
      - exact (i_d3 _ _ _ W).
      - exact (i_d4 _ _ _ W).
      - intros k H. rewrite Fo by (intros ->; contradiction). exact (i_rout _ _ _ W k H).
      - intros k A B. destruct (Nat.eq_dec k f) as [->|Nk]; [rewrite Ff; repeat split; assumption|]. rewrite (Fo k Nk). exact (i_keep _ _ _ W k A B).
      - intros k [<-|A] B.
        + rewrite Ff. split; [|reflexivity]. cbn [with_lists fnbr]. apply tri_ext. intros w. apply (i_hnb _ _ _ W f w Lf Nvs).
          intros f' v' kk I E. destruct (N_hor _ _ _ _ _ _ W I) as (Lf' & _ & NV). apply NV. rewrite (nb_of_edge f' v' f w Lf' Lf E). exact Sf.
        + assert (k <> f) as Nk by (intros ->; contradiction). rewrite (Fo k Nk). exact (i_see _ _ _ W k A B).
      - intros k A B. assert (k <> f) as Nk by (intros ->; apply B; left; reflexivity). rewrite (Fo k Nk). apply (i_hid _ _ _ W k A). intros H. apply B. right. exact H.
      - intros k w A B. rewrite (proj2 (Fs k)). apply (i_hnb _ _ _ W k w A). intros H. apply B. right. exact H.
      - intros f' v k H. assert (k <> f) as Nk by (intros ->; exact (Nsl (in_slots _ _ _ _ H))). rewrite (Fo k Nk). exact (i_nw _ _ _ W _ _ _ H).
      - apply (ridges_ok_frame q (facets (wh s))); [exact (i_ri _ _ _ W)|lia|]. intros k w s0 c _. destruct (Fs k) as [-> ->]. split; reflexivity.
      - intros k v H. destruct (i_done _ _ _ W k v H) as [A B]. split; [right; exact A|exact B].
      - intros i. rewrite in_app_iff, (i_out _ _ _ W), (i_hid _ _ _ W f Lf Nvs). split.
        + intros [[A|(k & A & B)]|A]; [left; exact A|right; exists k; split; [right; exact A|exact B]|right; exists f; split; [left; reflexivity|exact A]].
        + intros [A|(k & [<-|A] & B)]; [left; left; exact A|right; exact B|left; right; exists k; split; assumption].
      - rewrite app_length, (i_olen _ _ _ W), (i_hid _ _ _ W f Lf Nvs). cbn [map]. change (list_sum (?x :: ?l)) with (x + list_sum l)%nat. cbn [list_sum fold_right]. unfold list_sum. lia.
      - exact (i_rank _ _ _ W). }
    assert (forall v k, ~ In (f, v, k) N) as NN by (intros v k H; destruct (i_N _ _ _ W _ _ _ H) as [A _]; contradiction).
    assert (length L0 < d + length (wvisited s1))%nat as L1 by (cbn [s1 wvisited length]; lia).
    destruct (side_ok _ d f I0 s1 N fin IH W1 (or_introl eq_refl) Nfin (NN I0) L1) as (s2 & N2 & fin2 & -> & W2 & E2 & V2 & C2). cbn [bind].
    assert (forall s' N' fin', walk_ok s' N' fin' -> incl (wvisited s1) (wvisited s') -> (length L0 < d + length (wvisited s'))%nat) as LL.
    { intros s' N' fin' W' I. pose proof (NoDup_incl_length (i_vn _ _ _ W1) I). lia. }
    pose proof (vis_more _ _ _ _ _ _ f W1 W2 (proj1 E2) (or_introl eq_refl)) as If2.
    assert (~ In f fin2) as Nf2 by (intros H; destruct E2 as (_ & _ & _ & A4 & _); exact (Nfin (A4 f (or_introl eq_refl) H))).
    destruct (side_ok _ d f I1 s2 N2 fin2 IH W2 If2 Nf2) as (s3 & N3 & fin3 & -> & W3 & E3 & V3 & C3).
    { intros k H. destruct E2 as (_ & _ & _ & _ & _ & A6). destruct (A6 _ _ _ H) as [A|[A|[_ A]]]; [exact (NN _ _ A)|apply A; left; reflexivity|discriminate]. }
    { exact (LL _ _ _ W2 (proj1 E2)). }
    cbn [bind]. pose proof (ext_trans _ _ _ _ _ _ _ _ _ _ _ W1 W2 E2 E3) as E13.
    pose proof (vis_more _ _ _ _ _ _ f W1 W3 (proj1 E13) (or_introl eq_refl)) as If3.
    assert (~ In f fin3) as Nf3 by (intros H; destruct E13 as (_ & _ & _ & A4 & _); exact (Nfin (A4 f (or_introl eq_refl) H))).
    destruct (side_ok _ d f I2 s3 N3 fin3 IH W3 If3 Nf3) as (s4 & N4 & fin4 & -> & W4 & E4 & V4 & C4).
    { intros k H. destruct E13 as (_ & _ & _ & _ & _ & A6). destruct (A6 _ _ _ H) as [A|[A|[[_ A]|[_ A]]]]; [exact (NN _ _ A)|apply A; left; reflexivity|discriminate|discriminate]. }
    { exact (LL _ _ _ W3 (proj1 E13)). }
    cbn [bind]. pose proof (ext_trans _ _ _ _ _ _ _ _ _ _ _ W1 W3 E13 E4) as E14.
    pose proof (vis_more _ _ _ _ _ _ f W1 W4 (proj1 E14) (or_introl eq_refl)) as If4.
    assert (~ In f fin4) as Nf4 by (intros H; destruct E14 as (_ & _ & _ & A4 & _); exact (Nfin (A4 f (or_introl eq_refl) H))).
    destruct E3 as (E31 & E32 & _). destruct E4 as (E41 & E42 & _). clear E13 E2 W2 W3.
    assert (~ In f (map snd N4)) as Nsl4 by (intros H; exact (Nf4 (i_d2 _ _ _ W4 _ H Lf))).
    assert (~ In f (removed (wh s4))) as Nrem4 by (intros H; exact (Nf4 (i_d1 _ _ _ W4 _ H Lf))).
    exists true, (Walk (unrank f (wh s4)) (wnew s4) (wridges s4) (wvisited s4) (wvisible s4)), N4, (f :: fin4). split; [reflexivity|]. split; [|split; [|split; [|split; [intros _; exact Sf|reflexivity]]]].
    + split; cbn [unrank wh wnew wridges wvisited wvisible facets removed ranking outside].
      * exact (i_vd _ _ _ W4).
      * exact (i_vn _ _ _ W4).
      * exact (i_vs _ _ _ W4).
      * exact (i_vsn _ _ _ W4).
      * intros k [<-|H]; [exact If4|exact (i_fin _ _ _ W4 _ H)].
      * exact (i_new _ _ _ W4).
      * exact (i_N _ _ _ W4).
      * exact (i_fun _ _ _ W4).
      * exact (i_slots _ _ _ W4).
      * intros k. rewrite (i_dom _ _ _ W4 k). cbn [In]. clear - Lf Nf4. destruct (Nat.eq_dec f k) as [<-|Nk]; tauto.
      * intros k [<-|H] HL; [left; reflexivity|right; exact (i_d1 _ _ _ W4 _ H HL)].
      * intros k H HL. right. exact (i_d2 _ _ _ W4 _ H HL).
      * intros k [<-|H]; [exact Nsl4|exact (i_d3 _ _ _ W4 _ H)].
      * constructor; [exact Nrem4|exact (i_d4 _ _ _ W4)].
      * intros k [<-|H]; [exact (proj2 (i_see _ _ _ W4 f If4 Nf4))|exact (i_rout _ _ _ W4 _ H)].
      * intros k A B. apply (i_keep _ _ _ W4 k A). intros H. apply B. right. exact H.
      * intros k A B. apply (i_see _ _ _ W4 k A). intros H. apply B. right. exact H.
      * exact (i_hid _ _ _ W4).
      * exact (i_hnb _ _ _ W4).
      * exact (i_nw _ _ _ W4).
      * exact (i_ri _ _ _ W4).
      * intros k v [<-|H]; [|exact (i_done _ _ _ W4 k v H)]. destruct v.
        -- split; [exact (E41 _ (E31 _ V2))|]. intros H. destruct (C2 H) as [kk X]. exists kk. exact (E42 _ (E32 _ X)).
        -- split; [exact (E41 _ V3)|]. intros H. destruct (C3 H) as [kk X]. exists kk. exact (E42 _ X).
        -- split; [exact V4|]. exact C4.
      * exact (i_out _ _ _ W4).
      * exact (i_olen _ _ _ W4).
      * rewrite (i_rank _ _ _ W4), filter_filter. apply filter_ext. intros [x y]. cbn [snd]. unfold mem. cbn [existsb]. rewrite negb_orb, andb_comm. reflexivity.
    + destruct E14 as (A1 & A2 & A3 & A4 & A5 & A6). unfold ext. cbn [unrank wh wvisited wvisible].
      split; [intros k H; apply A1; right; exact H|]. split; [exact A2|]. split; [intros k H; right; exact (A3 _ H)|].
      split; [intros k H [<-|H2]; [contradiction|]; apply (A4 k); [right; exact H|exact H2]|].
      split; [intros k H; destruct (A5 k H) as [[<-|H1]|H1]; [right; left; reflexivity|left; exact H1|right; right; exact H1]|].
      intros f' v k H. destruct (A6 f' v k H) as [H1|[H1|H1]]; [left; exact H1|right; left; intros H2; apply H1; right; exact H2|].
      right. left. assert (f' = f) as -> by tauto. exact Nvs.
    + apply (proj1 E14). left. reflexivity.
Qed.
End Walk.
