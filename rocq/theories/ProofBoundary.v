(** Proofs about vector hashing, duplicate removal and grouping of boundary points. *)
From Coq Require Import List ZArith Lia QArith Qcanon Qround Lqa Bool Permutation.
From Verif Require Import Base BaseFacts LoopFacts ModelVec ModelMemView ModelNurbs ModelSurface ModelPolyline ModelBoundary
  SpecBoundary ProofMinimize ProofPolyline.
Import ListNotations.
Open Scope Qc_scope.

(** ** Quantised vectors *)
Definition q15 (c : Qc) : Z := qc_trunc (c * Qc_of_Z 15).

Ltac zq z := qc_push; rewrite ?this_of_Z in *; let zz := fresh in set (zz := inject_Z z) in *; clearbody zz; unfold inject_Z in *; lra.

Lemma trunc_cases (x : Qc) : (0 <= x /\ Qc_of_Z (qc_trunc x) <= x /\ x < Qc_of_Z (qc_trunc x) + 1) \/
  (x < 0 /\ x <= Qc_of_Z (qc_trunc x) /\ Qc_of_Z (qc_trunc x) - 1 < x).
Proof.
  unfold qc_trunc. destruct (Qcltb_spec x 0) as [L|L].
  - right. destruct (floor_bounds (- x)) as [A B].
    assert (Qc_of_Z (- qc_floor (- x)) = - Qc_of_Z (qc_floor (- x))) as ->.
    { apply Qc_is_canon. rewrite this_opp, !this_of_Z. unfold inject_Z, Qopp, Qeq. cbn. lia. }
    repeat apply conj; [assumption|qc_lra|qc_lra].
  - left. destruct (floor_bounds x) as [A B]. repeat apply conj; [qc_lra|assumption|assumption].
Qed.

Lemma q15_ok c : Qcabs c < qc 143165576 1 -> quantize c DECIMALS = Ok (q15 c).
Proof.
  intros H. unfold quantize, DECIMALS. fold (q15 c). apply int_op_ok.
  assert (- qc 143165576 1 < c /\ c < qc 143165576 1) as [H1 H2].
  { destruct (Qcabs_cases c) as [[P E]|[P E]]; rewrite E in H; split; qc_lra. }
  destruct (trunc_cases (c * Qc_of_Z 15)) as [(A & B & C)|(A & B & C)]; fold (q15 c) in *; revert A B C; generalize (q15 c); intros z A B C.
  - split.
    + apply Z.lt_le_incl. assert (-1 < z)%Z; [|lia]. apply Qc_of_Z_lt. zq z.
    + apply Qc_of_Z_lt. change (2 ^ 31)%Z with 2147483648%Z. zq z.
  - split.
    + apply Qc_of_Z_le. change (- 2 ^ 31)%Z with (-2147483648)%Z. zq z.
    + assert (z < 1)%Z; [|lia]. apply Qc_of_Z_lt. zq z.
Qed.

Definition q3 (v : vec3) : Z * Z * Z := (q15 (vx v), q15 (vy v), q15 (vz v)).

Lemma vec3_equal_ok a b : hashable a -> hashable b -> exists r, vec3_equal a b = Ok r /\ (r = true <-> q3 a = q3 b).
Proof.
  intros (A1 & A2 & A3) (B1 & B2 & B3). unfold vec3_equal. rewrite !q15_ok by assumption. cbn [bind]. unfold q3.
  destruct (Z.eqb_spec (q15 (vx a)) (q15 (vx b))) as [X|X]; cbn [negb]; [|exists false; split; [reflexivity|split; congruence]].
  destruct (Z.eqb_spec (q15 (vy a)) (q15 (vy b))) as [Y|Y]; cbn [negb]; [|exists false; split; [reflexivity|split; congruence]].
  eexists. split; [reflexivity|]. rewrite Z.eqb_eq. rewrite X, Y. split; [intros ->; reflexivity|congruence].
Qed.
Lemma vec3_equal_q3 a b r : hashable a -> hashable b -> vec3_equal a b = Ok r -> (r = true <-> q3 a = q3 b).
Proof. intros A B E. destruct (vec3_equal_ok a b A B) as (r' & E' & H). assert (r = r') as -> by congruence. exact H. Qed.

Lemma hash_ok h a : hashable a -> exists z, vec3_hash h a = Ok z.
Proof. intros (A1 & A2 & A3). unfold vec3_hash. rewrite !q15_ok by assumption. cbn [bind]. eauto. Qed.

Lemma equal_equivalence :
  (forall a, hashable a -> vec3_equal a a = Ok true) /\
  (forall a b, hashable a -> hashable b -> vec3_equal a b = Ok true -> vec3_equal b a = Ok true) /\
  (forall a b c, hashable a -> hashable b -> hashable c -> vec3_equal a b = Ok true -> vec3_equal b c = Ok true -> vec3_equal a c = Ok true) /\
  (forall h a b, hashable a -> hashable b -> vec3_equal a b = Ok true -> exists z, vec3_hash h a = Ok z /\ vec3_hash h b = Ok z).
Proof.
  assert (forall a b, hashable a -> hashable b -> q3 a = q3 b -> vec3_equal a b = Ok true) as K.
  { intros a b A B E. destruct (vec3_equal_ok a b A B) as (r & -> & H). rewrite (proj2 H E). reflexivity. }
  assert (forall a b, hashable a -> hashable b -> vec3_equal a b = Ok true -> q3 a = q3 b) as K2.
  { intros a b A B E. apply (vec3_equal_q3 a b true A B E). reflexivity. }
  repeat apply conj.
  - intros a A. apply K; auto.
  - intros a b A B E. apply K; auto. symmetry. auto.
  - intros a b c A B C E1 E2. apply K; auto. transitivity (q3 b); auto.
  - intros h a b A B E. apply K2 in E; [|assumption|assumption]. unfold q3 in E. destruct A as (A1 & A2 & A3). destruct B as (B1 & B2 & B3).
    unfold vec3_hash. rewrite !q15_ok by assumption. cbn [bind]. assert (q15 (vx a) = q15 (vx b) /\ q15 (vy a) = q15 (vy b) /\ q15 (vz a) = q15 (vz b)) as (-> & -> & ->) by (repeat split; congruence). eauto.
Qed.

Lemma pair_equal_exact a b : pair_equal a b = true <-> a = b.
Proof.
  unfold pair_equal. rewrite andb_true_iff, !Qceqb_iff. destruct a, b. cbn. split; [intros (-> & ->); reflexivity|intros [= -> ->]; auto].
Qed.
Lemma pair_hash_consistent h a b z : pair_equal a b = true -> pair_hash h a = Ok z -> pair_hash h b = Ok z.
Proof.
  unfold pair_equal, pair_hash. rewrite andb_true_iff. intros [E _]. apply Qceqb_iff in E. rewrite E. auto.
Qed.

Lemma q15_diff a b : q15 a = q15 b -> a - b < qc 2 15.
Proof.
  intros E. unfold q15 in E. destruct (trunc_cases (a * Qc_of_Z 15)) as [(A & B & C)|(A & B & C)]; destruct (trunc_cases (b * Qc_of_Z 15)) as [(A' & B' & C')|(A' & B' & C')]; rewrite E in *; revert A B C A' B' C';
  generalize (qc_trunc (b * Qc_of_Z 15)); intros z A B C A' B' C'; zq z.
Qed.
Lemma equal_close a b : hashable a -> hashable b -> vec3_equal a b = Ok true ->
  Qcabs (vx a - vx b) < qc 2 15 /\ Qcabs (vy a - vy b) < qc 2 15 /\ Qcabs (vz a - vz b) < qc 2 15.
Proof.
  intros A B E. apply vec3_equal_q3 in E; [|assumption|assumption]. pose proof (proj1 E eq_refl) as E'. unfold q3 in E'.
  assert (forall x y, q15 x = q15 y -> Qcabs (x - y) < qc 2 15) as K.
  { intros x y H. pose proof (q15_diff x y H). pose proof (q15_diff y x (eq_sym H)).
    destruct (Qcabs_cases (x - y)) as [[P Eq]|[P Eq]]; rewrite Eq; qc_lra. }
  repeat apply conj; apply K; congruence.
Qed.

Lemma big_unhashable h v : qc 143165577 1 <= vx v -> vec3_hash h v = UB.
Proof.
  intros H. unfold vec3_hash, quantize. rewrite int_op_ub; [reflexivity|]. right. unfold DECIMALS.
  destruct (trunc_cases (vx v * Qc_of_Z 15)) as [(A & B & C)|(A & B & C)].
  - revert B C. generalize (qc_trunc (vx v * Qc_of_Z 15)). intros z B C. assert (2 ^ 31 < z + 1)%Z; [|lia].
    apply Qc_of_Z_lt. rewrite Qc_of_Z_add. change (2 ^ 31)%Z with 2147483648%Z. zq z.
  - exfalso. qc_push; rewrite ?this_of_Z in *; unfold inject_Z in *; lra.
Qed.

(** ** Removing duplicates *)
Lemma any_equal_spec s v b : any_equal s v = Ok b ->
  (b = true -> exists a, In a s /\ vec3_equal a v = Ok true) /\ (b = false -> forall a, In a s -> vec3_equal a v = Ok false).
Proof.
  revert b. induction s as [|x t IH]; intros b E; cbn [any_equal] in E.
  - injection E as <-. split; [discriminate|intros _ a []].
  - destruct (vec3_equal x v) as [r| |] eqn:Ex; cbn [bind] in E; try discriminate. destruct r.
    + injection E as <-. split; [intros _; exists x; split; [left; reflexivity|assumption]|discriminate].
    + destruct (IH b E) as [H1 H2]. split.
      * intros Hb. destruct (H1 Hb) as (a & Ha & Ea). exists a. split; [right; assumption|assumption].
      * intros Hb a [<-|Ha]; [assumption|auto].
Qed.
Lemma any_equal_ok s v : (forall a, In a s -> hashable a) -> hashable v -> exists b, any_equal s v = Ok b.
Proof.
  intros Hs Hv. induction s as [|x t IH]; [eexists; reflexivity|]. cbn [any_equal].
  destruct (vec3_equal_ok x v) as (r & -> & _); [apply Hs; left; reflexivity|assumption|]. cbn [bind].
  destruct r; [eauto|]. apply IH. intros; apply Hs; right; assumption.
Qed.

Lemma contains_inv s v b : set_contains s v = Ok b -> any_equal s v = Ok b.
Proof. unfold set_contains. destruct (vec3_hash _ v); cbn [bind]; congruence. Qed.

(** [kept] is a selection of [pts] *)
Inductive sublist {A} : list A -> list A -> Prop :=
| sub_nil : sublist [] []
| sub_keep a l m : sublist l m -> sublist (a :: l) (a :: m)
| sub_drop a l m : sublist l m -> sublist l (a :: m).
Lemma sublist_refl {A} (l : list A) : sublist l l.
Proof. induction l; constructor; assumption. Qed.
Lemma sublist_in {A} (l m : list A) a : sublist l m -> In a l -> In a m.
Proof. induction 1; intros H'; [assumption|destruct H'; [left; assumption|right; auto]|right; auto]. Qed.

Lemma unique_ok : forall todo seen kept tail out, unique_from todo seen kept = Ok out -> seen = map ip_point kept ->
  distinct_points kept -> sublist kept tail ->
  sublist out (rev todo ++ tail) /\ distinct_points out /\ incl kept out /\
  forall p, In p todo -> In p out \/ exists q, In q out /\ vec3_equal (ip_point q) (ip_point p) = Ok true.
Proof.
  induction todo as [|p t IH]; intros seen kept tail out E Es D S; cbn [unique_from] in E.
  - injection E as <-. cbn. repeat apply conj; [assumption|assumption|apply incl_refl|intros p []].
  - destruct (set_contains seen (ip_point p)) as [b| |] eqn:Ec; cbn [bind] in E; try discriminate.
    apply contains_inv, any_equal_spec in Ec as [C1 C2]. cbn [rev]. rewrite <- app_assoc. cbn [app]. destruct b.
    + destruct (IH seen kept (p :: tail) out E Es D) as (S' & D' & I' & C'); [constructor; assumption|].
      repeat apply conj; [assumption|assumption|assumption|]. intros x [<-|Hx]; [|auto]. right.
      destruct (C1 eq_refl) as (a & Ha & Ea). subst seen. apply in_map_iff in Ha as (q & <- & Hq). exists q. auto.
    + destruct (IH (ip_point p :: seen) (p :: kept) (p :: tail) out E) as (S' & D' & I' & C').
      * subst seen. reflexivity.
      * constructor; [|assumption]. apply Forall_forall. intros q Hq. apply C2; [reflexivity|]. subst seen. apply in_map. assumption.
      * constructor. assumption.
      * repeat apply conj; [assumption|assumption|intros x Hx; apply I'; right; assumption|]. intros x [<-|Hx]; [|auto].
        left. apply I'. left. reflexivity.
Qed.

Lemma unique_runs : forall todo seen kept, (forall p, In p todo -> hashable (ip_point p)) -> (forall v, In v seen -> hashable v) ->
  exists out, unique_from todo seen kept = Ok out.
Proof.
  induction todo as [|p t IH]; intros seen kept H1 H2; [eexists; reflexivity|]. cbn [unique_from].
  assert (hashable (ip_point p)) as Hp by (apply H1; left; reflexivity).
  unfold set_contains. destruct (hash_ok (fun z => z) _ Hp) as (z & ->). cbn [bind].
  destruct (any_equal_ok seen (ip_point p) H2 Hp) as (b & ->). cbn [bind].
  destruct b; apply IH; try (intros; apply H1; right; assumption); [assumption|]. intros v [<-|Hv]; auto.
Qed.

Lemma remove_duplicates_spec pts out : remove_duplicates pts = Ok out ->
  sublist out pts /\ distinct_points out /\
  forall p, In p pts -> In p out \/ exists q, In q out /\ vec3_equal (ip_point q) (ip_point p) = Ok true.
Proof.
  intros E. unfold remove_duplicates in E. destruct (unique_ok _ _ _ [] _ E eq_refl) as (S & D & _ & C).
  - constructor.
  - constructor.
  - rewrite rev_involutive, app_nil_r in S. split; [assumption|]. split; [assumption|].
    intros p Hp. apply C. apply in_rev. rewrite rev_involutive. assumption.
Qed.

(** ** Collecting *)
Section Find.
Variable csx : ncurve -> nsurf -> Qc -> res (list (vec3 * (Qc * Qc * Qc))).

Definition hit_point (i : Z) (first : bool) interval (h : vec3 * (Qc * Qc * Qc)) : ipoint :=
  let '(p, (a, b, d)) := h in ip_make p a (b, d) i first interval.

Lemma collect_spec first interval other tol : forall curves i0 pts out,
  collect csx first interval other tol i0 curves pts = Ok out ->
  (forall p, In p pts -> In p out) /\
  (forall p, In p out -> In p pts \/ exists i c hits h, nth_error curves i = Some c /\ csx c other tol = Ok hits /\ In h hits /\
      p = hit_point (i0 + Z.of_nat i) first interval h) /\
  (forall i c hits h, nth_error curves i = Some c -> csx c other tol = Ok hits -> In h hits -> In (hit_point (i0 + Z.of_nat i) first interval h) out).
Proof.
  induction curves as [|c t IH]; intros i0 pts out E; cbn [collect] in E.
  - injection E as <-. repeat apply conj; [auto|auto|intros [|i] c hits h K; discriminate].
  - destruct (csx c other tol) as [hits| |] eqn:Ec; cbn [bind] in E; try discriminate.
    apply IH in E as (E1 & E2 & E3). repeat apply conj.
    + intros p Hp. apply E1, in_or_app. left. assumption.
    + intros p Hp. apply E2 in Hp as [Hp|(i & c' & hits' & h & A & B & C & D)].
      * apply in_app_or in Hp as [Hp|Hp]; [left; assumption|]. right. apply in_map_iff in Hp as (h & Eh & Hh).
        exists 0%nat, c, hits, h. rewrite Z.add_0_r. repeat apply conj; [reflexivity|assumption|assumption|]. symmetry. exact Eh.
      * right. exists (S i), c', hits', h. repeat apply conj; [assumption|assumption|assumption|]. rewrite D. f_equal. lia.
    + intros [|i] c' hits' h K1 K2 K3; cbn [nth_error] in K1.
      * injection K1 as <-. apply E1, in_or_app. right. assert (hits' = hits) as -> by congruence. rewrite Z.add_0_r.
        apply in_map_iff. exists h. split; [reflexivity|assumption].
      * replace (i0 + Z.of_nat (S i))%Z with (i0 + 1 + Z.of_nat i)%Z by lia. eapply E3; eassumption.
Qed.

Lemma hit_point_fields i first interval p t u v : 
  let x := hit_point i first interval (p, (t, u, v)) in
  ip_point x = p /\ ip_t x = t /\ ip_params x = (u, v) /\ ip_boundary x = i /\ ip_first x = first /\ ip_interval x = interval.
Proof. repeat split. Qed.

Lemma find_sound s1 s2 pts tol out : find_boundary_intersections csx s1 s2 pts tol = Ok out ->
  forall p, In p out -> In p pts \/ recorded csx tol s1 s2 true p \/ recorded csx tol s2 s1 false p.
Proof.
  unfold find_boundary_intersections. destruct (free_boundaries s1) as [b1| |] eqn:E1; cbn [bind]; try discriminate.
  destruct (free_boundaries s2) as [b2| |] eqn:E2; cbn [bind]; try discriminate.
  destruct (collect csx true _ s2 tol 0 b1 pts) as [p1| |] eqn:C1; cbn [bind]; try discriminate.
  destruct (collect csx false _ s1 tol 0 b2 p1) as [p2| |] eqn:C2; cbn [bind]; try discriminate.
  intros E p Hp. apply remove_duplicates_spec in E as (S & _ & _). apply (sublist_in _ _ _ S) in Hp.
  apply collect_spec in C1 as (_ & C1 & _). apply collect_spec in C2 as (_ & C2 & _).
  apply C2 in Hp as [Hp|(i & c & hits & [q [[t u] v]] & A & B & C & ->)].
  - apply C1 in Hp as [Hp|(i & c & hits & [q [[t u] v]] & A & B & C & ->)]; [left; assumption|]. right. left.
    exists b1, i, c, hits, t, u, v. rewrite Z.add_0_l. repeat apply conj; try assumption; reflexivity.
  - right. right. exists b2, i, c, hits, t, u, v. rewrite Z.add_0_l. repeat apply conj; try assumption; reflexivity.
Qed.

Lemma find_covers s1 s2 pts tol out : find_boundary_intersections csx s1 s2 pts tol = Ok out ->
  distinct_points out /\
  forall own other, (own = s1 /\ other = s2) \/ (own = s2 /\ other = s1) ->
  forall curves c hits p w, free_boundaries own = Ok curves -> In c curves -> csx c other tol = Ok hits -> In (p, w) hits ->
  exists q, In q out /\ (ip_point q = p \/ vec3_equal (ip_point q) p = Ok true).
Proof.
  unfold find_boundary_intersections. destruct (free_boundaries s1) as [b1| |] eqn:E1; cbn [bind]; try discriminate.
  destruct (free_boundaries s2) as [b2| |] eqn:E2; cbn [bind]; try discriminate.
  destruct (collect csx true _ s2 tol 0 b1 pts) as [p1| |] eqn:C1; cbn [bind]; try discriminate.
  destruct (collect csx false _ s1 tol 0 b2 p1) as [p2| |] eqn:C2; cbn [bind]; try discriminate.
  intros E. apply remove_duplicates_spec in E as (_ & D & K). split; [assumption|].
  apply collect_spec in C1 as (_ & _ & C1). apply collect_spec in C2 as (I2 & _ & C2).
  intros own other Ho curves c hits p [[t u] v] Eb Hc Ex Hh. apply In_nth_error in Hc as (i & Hi).
  assert (exists x, In x p2 /\ ip_point x = p) as (x & Hx & Ep).
  { destruct Ho as [[-> ->]|[-> ->]].
    - assert (curves = b1) as -> by congruence. eexists. split; [apply I2; eapply C1; eassumption|]. reflexivity.
    - assert (curves = b2) as -> by congruence. eexists. split; [eapply C2; eassumption|]. reflexivity. }
  destruct (K x Hx) as [Hq|(q & Hq & Eq)].
  - exists x. auto.
  - exists q. rewrite <- Ep. auto.
Qed.
End Find.

(** ** Start parameters *)
Lemma start_params pt t uv i first iv :
  get_start_params (ip_make pt t uv i first iv) =
    (ip_s1 (ip_make pt t uv i first iv), ip_s2 (ip_make pt t uv i first iv)) /\
  (let own := if first then ip_s1 (ip_make pt t uv i first iv) else ip_s2 (ip_make pt t uv i first iv) in
   (i = 0%Z -> own = (fst (fst iv), t)) /\ (i = 1%Z -> own = (snd (fst iv), t)) /\
   (i = 2%Z -> own = (t, fst (snd iv))) /\ (i = 3%Z -> own = (t, snd (snd iv)))) /\
  (if first then ip_s2 (ip_make pt t uv i first iv) else ip_s1 (ip_make pt t uv i first iv)) = uv.
Proof.
  split; [|split].
  - unfold get_start_params, ip_make. cbn. destruct first; reflexivity.
  - repeat apply conj; intros ->; destruct first; reflexivity.
  - destruct first; reflexivity.
Qed.

(** ** Grouping *)
Section Sort.
Variable len : vec3 -> option Qc.
Variable points : list ipoint.

Lemma closest_ok i cur : nth_error points i = Some cur -> forall rest best, (forall k, In k rest -> (k < length points)%nat) ->
  exists r, closest_from len points cur rest best = Ok r /\
  match r with
  | None => best = None /\ forall k, In k rest -> gap len points i k = None
  | Some (j, d) => (best = Some (j, d) \/ (In j rest /\ gap len points i j = Some d)) /\
      (forall j' d', best = Some (j', d') -> d <= d') /\ (forall k e, In k rest -> gap len points i k = Some e -> d <= e)
  end.
Proof.
  intros Ei. induction rest as [|k t IH]; intros best Hr.
  - exists best. split; [reflexivity|]. destruct best as [[j d]|].
    + split; [left; reflexivity|]. split; [|intros k e []]. intros j' d' E. injection E as <- <-. apply Qcle_refl.
    + split; [reflexivity|intros k []].
  - cbn [closest_from]. destruct (nth_some points k) as (c & Ek); [apply Hr; left; reflexivity|].
    rewrite (get_nth _ _ _ Ek). cbn [bind].
    assert (gap len points i k = len (v3sub (ip_point cur) (ip_point c))) as Eg by (unfold gap; rewrite Ei, Ek; reflexivity).
    set (b' := match len (v3sub (ip_point cur) (ip_point c)) with Some d => _ | None => _ end).
    destruct (IH b') as (r & Er & H); [intros; apply Hr; right; assumption|]. exists r. split; [exact Er|].
    unfold b' in H. rewrite <- Eg in H. clear IH Er b'. destruct (gap len points i k) as [dk|] eqn:Ed; cycle 1.
    + destruct r as [[j d]|].
      * destruct H as (A & B & C). split; [destruct A as [A|[A1 A2]]; [left; assumption|right; split; [right; assumption|assumption]]|].
        split; [assumption|]. intros k' e [<-|K] Ke; [congruence|eauto].
      * destruct H as [A B]. split; [assumption|]. intros k' [<-|K]; auto.
    + destruct best as [[j0 m]|].
      * destruct (Qcltb_spec dk m) as [L|L].
        -- destruct r as [[j d]|]; [|destruct H; discriminate]. destruct H as (A & B & C).
           pose proof (B _ _ eq_refl) as Bd. split.
           ++ right. destruct A as [A|[A1 A2]]; [injection A as <- <-; split; [left; reflexivity|assumption]|split; [right; assumption|assumption]].
           ++ split; [intros j' d' E; injection E as <- <-; qc_lra|]. intros k' e [<-|K] Ke; [rewrite Ed in Ke; injection Ke as <-; assumption|eauto].
        -- destruct r as [[j d]|]; [|destruct H; discriminate]. destruct H as (A & B & C).
           pose proof (B _ _ eq_refl) as Bd. split.
           ++ destruct A as [A|[A1 A2]]; [left; assumption|right; split; [right; assumption|assumption]].
           ++ split; [assumption|]. intros k' e [<-|K] Ke; [rewrite Ed in Ke; injection Ke as <-; qc_lra|eauto].
      * destruct r as [[j d]|]; [|destruct H; discriminate]. destruct H as (A & B & C).
        pose proof (B _ _ eq_refl) as Bd. split.
        -- right. destruct A as [A|[A1 A2]]; [injection A as <- <-; split; [left; reflexivity|assumption]|split; [right; assumption|assumption]].
        -- split; [discriminate|]. intros k' e [<-|K] Ke; [rewrite Ed in Ke; injection Ke as <-; assumption|eauto].
Qed.

Lemma filter_len {A} (f : A -> bool) l : (length (filter f l) <= length l)%nat.
Proof. induction l as [|a t IH]; cbn; [lia|]. destruct (f a); cbn; lia. Qed.
Lemma remove_perm j l : NoDup l -> In j l -> Permutation l (j :: filter (fun k => negb (Nat.eqb k j)) l).
Proof.
  intros Nd Hj. apply NoDup_Permutation; [assumption| |].
  - constructor; [rewrite filter_In, Nat.eqb_refl; intros [_ K]; discriminate|]. apply NoDup_filter. assumption.
  - intros x. cbn [In]. rewrite filter_In, negb_true_iff, Nat.eqb_neq. destruct (Nat.eq_dec x j) as [->|N]; intuition congruence.
Qed.

Lemma grow_ok i rest : (i < length points)%nat -> (forall k, In k rest -> (k < length points)%nat) -> NoDup rest ->
  forall p, nth_error points i = Some p ->
  exists g seq rest', grow len points 2 [p] rest = Ok (seq, rest') /\ Forall2 (fun i p => nth_error points i = Some p) g seq /\
    Permutation (i :: rest) (g ++ rest') /\ NoDup rest' /\ (length rest' <= length rest)%nat /\
    ((g = [i] /\ rest' = rest /\ forall k, In k rest -> gap len points i k = None) \/
     (exists j d, g = [i; j] /\ gap len points i j = Some d /\ forall k e, In k rest' -> gap len points i k = Some e -> d <= e)).
Proof.
  intros Hi Hr Nd p Ei. cbn [grow length]. cbn [Nat.sub]. unfold get at 1. cbn [nth_error of_option bind].
  destruct (closest_ok i p Ei rest None Hr) as (r & -> & H). cbn [bind].
  destruct r as [[j d]|].
  - destruct H as (A & _ & C). destruct A as [A|[A1 A2]]; [discriminate|]. cbn [Nat.eqb].
    destruct (nth_some points j (Hr j A1)) as (q & Ej). rewrite (get_nth _ _ _ Ej). cbn [bind app length]. cbn [Nat.sub].
    unfold get at 1. cbn [nth_error of_option bind]. set (rest' := filter (fun k => negb (Nat.eqb k j)) rest).
    assert (forall k, In k rest' -> In k rest) as Hi' by (intros k K; apply filter_In in K; tauto).
    destruct (closest_ok j q Ej rest' None) as (r2 & -> & _); [auto|]. cbn [bind].
    exists [i; j], [p; q], rest'. split; [destruct r2 as [[? ?]|]; reflexivity|]. split; [repeat constructor; assumption|].
    split; [cbn [app]; apply perm_skip; apply remove_perm; assumption|]. split; [apply NoDup_filter; assumption|].
    split; [apply filter_len|].
    right. exists j, d. repeat apply conj; [reflexivity|assumption|]. intros k e K. apply C. auto.
  - destruct H as [_ B]. exists [i], [p], rest. split; [reflexivity|]. split; [repeat constructor; assumption|].
    split; [reflexivity|]. split; [assumption|]. split; [lia|]. left. auto.
Qed.

Lemma sort_loop_ok : forall fuel un res0, (length un <= fuel)%nat -> NoDup un -> (forall k, In k un -> (k < length points)%nat) ->
  exists gs out, sort_loop len points fuel un res0 = Ok (res0 ++ out) /\ groups_of points gs out /\ Permutation (concat gs) un /\
    Forall (fun g => exists i, g = [i] \/ exists j, g = [i; j]) gs /\ pairs_nearest len points gs /\
    (finite_gaps len points -> only_last_single gs).
Proof.
  induction fuel as [|f IH]; intros un res0 L Nd Hu.
  - destruct un; [|cbn in L; lia]. exists [], []. cbn. rewrite app_nil_r. split; [reflexivity|]. split; [constructor|]. split; [constructor|]. split; [constructor|].
    split; [intros l1 i j l2 k E; destruct l1; discriminate|intros _ l1 g l2 E; destruct l1; discriminate].
  - destruct un as [|i rest].
    { exists [], []. cbn. rewrite app_nil_r. split; [reflexivity|]. split; [constructor|]. split; [constructor|]. split; [constructor|].
      split; [intros l1 i j l2 k E; destruct l1; discriminate|intros _ l1 g l2 E; destruct l1; discriminate]. }
    cbn [sort_loop]. assert (i < length points)%nat as Hi by (apply Hu; left; reflexivity).
    destruct (nth_some points i Hi) as (p & Ei). rewrite (get_nth _ _ _ Ei). cbn [bind].
    assert (NoDup rest) as Nr by (inversion Nd; assumption).
    destruct (grow_ok i rest Hi (fun k K => Hu k (or_intror K)) Nr p Ei) as (g & sq & rest' & -> & Fg & Pm & Nr' & Lr & Cs). cbn [bind].
    assert (forall k, In k rest' -> In k (i :: rest)) as Hin.
    { intros k K. apply (Permutation_in _ (Permutation_sym Pm)). apply in_or_app. right. assumption. }
    destruct (IH rest' (res0 ++ [sq])) as (gs & out & -> & G & P & F & N & S); [cbn in L; lia|assumption|intros k K; apply Hu; auto|].
    exists (g :: gs), (sq :: out). split; [rewrite <- app_assoc; reflexivity|]. split; [constructor; assumption|].
    split; [cbn [concat]; rewrite P; symmetry; assumption|].
    split; [constructor; [destruct Cs as [(-> & _)|(j & d & -> & _)]; eauto|assumption]|].
    split.
    + intros l1 i' j' l2 k E K. destruct l1 as [|g' l1]; cbn [app] in E.
      * injection E as -> <-. destruct Cs as [(E & _)|(j & d & E & Ed & Hd)]; [discriminate|]. injection E as -> ->.
        exists d. split; [assumption|]. intros e. apply Hd. apply (Permutation_in _ P). assumption.
      * injection E as _ E. eapply N; eassumption.
    + intros Hf l1 g' l2 E Hl2. destruct l1 as [|g'' l1]; cbn [app] in E.
      * injection E as <- <-. destruct Cs as [(-> & -> & Hn)|(j & d & -> & _)]; [|reflexivity]. exfalso.
        destruct rest as [|k rest].
        { apply Permutation_sym, Permutation_nil in P. destruct gs as [|g0 gs']; [congruence|].
          inversion F as [|? ? (x & Hx) _]; subst. destruct Hx as [->|(y & ->)]; discriminate. }
        apply (Hf i k Hi); [apply Hu; right; left; reflexivity|]. apply Hn. left. reflexivity.
      * injection E as _ E. eapply S; eassumption.
Qed.

Lemma sort_ok res0 : exists gs out, sort_boundary_intersections len points res0 = Ok (res0 ++ out) /\
  groups_of points gs out /\ grouping (length points) gs /\ pairs_nearest len points gs /\
  (finite_gaps len points -> only_last_single gs).
Proof.
  unfold sort_boundary_intersections.
  destruct (sort_loop_ok (length points) (seq 0 (length points)) res0) as (gs & out & E & G & P & F & N & S);
    [rewrite seq_length; lia|apply seq_NoDup|intros k K; apply in_seq in K; lia|].
  exists gs, out. repeat (split; [first [assumption|split; assumption]|]). assumption.
Qed.
End Sort.
