(** pointInPolygon2D and the complete classification of convex polygons. *)
From Coq Require Import List ZArith QArith Qcanon Bool Lia Lqa Field Permutation.
From Verif Require Import Base BaseFacts LoopFacts ModelVec ModelAabb ModelPolygon SpecNurbs SpecPolygon ProofBspline ProofSurface ProofMinimize ProofPolygon ProofSat.
Import ListNotations.
Open Scope Qc_scope.

(** ** counting *)
Definition cnt {A} (f : A -> bool) (l : list A) : nat := length (filter f l).
Lemma cnt_cons {A} (f : A -> bool) a l : cnt f (a :: l) = ((if f a then 1 else 0) + cnt f l)%nat.
Proof. unfold cnt. cbn [filter]. destruct (f a); reflexivity. Qed.
Lemma cnt_app {A} (f : A -> bool) a b : cnt f (a ++ b) = (cnt f a + cnt f b)%nat.
Proof. unfold cnt. rewrite filter_app, app_length. reflexivity. Qed.
Lemma cnt_map {A B} (f : B -> bool) (g : A -> B) l : cnt f (map g l) = cnt (fun x => f (g x)) l.
Proof. induction l; [reflexivity|]. cbn [map]. rewrite !cnt_cons, IHl. reflexivity. Qed.
Lemma cnt_ext {A} (f g : A -> bool) l : (forall x, In x l -> f x = g x) -> cnt f l = cnt g l.
Proof. induction l as [|a l IH]; intros H; [reflexivity|]. rewrite !cnt_cons, (H a) by (left; reflexivity). rewrite IH; [reflexivity|]. intros. apply H. right. assumption. Qed.
Lemma cnt_split {A} (f g : A -> bool) l : cnt f l = (cnt (fun x => f x && g x) l + cnt (fun x => f x && negb (g x)) l)%nat.
Proof. induction l; [reflexivity|]. rewrite !cnt_cons, IHl. destruct (f a), (g a); cbn; lia. Qed.
Lemma cnt_perm {A} (f : A -> bool) l l' : Permutation l l' -> cnt f l = cnt f l'.
Proof. induction 1; rewrite ?cnt_cons; lia. Qed.
Lemma cnt_zero {A} (f : A -> bool) l : cnt f l = 0%nat <-> forall x, In x l -> f x = false.
Proof.
  induction l as [|a l IH]; [split; [intros _ x []|reflexivity]|]. rewrite cnt_cons. split.
  - intros H x [->|Hx]; [destruct (f x); [cbn in H; lia|reflexivity]|]. apply IH; [destruct (f a); lia|exact Hx].
  - intros H. rewrite (H a) by (left; reflexivity). apply IH. intros. apply H. right. assumption.
Qed.
Lemma cnt_unique {A} (f : A -> bool) l : NoDup l -> (forall x y, In x l -> In y l -> f x = true -> f y = true -> x = y) -> (cnt f l <= 1)%nat.
Proof.
  induction 1 as [|a l N ND IH]; intros U; [cbn; lia|]. rewrite cnt_cons. destruct (f a) eqn:E; [|apply IH; intros; apply U; auto using in_cons].
  replace (cnt f l) with 0%nat; [lia|]. symmetry. apply cnt_zero. intros x Hx. destruct (f x) eqn:E'; [|reflexivity]. exfalso. apply N.
  rewrite (U a x); auto using in_eq, in_cons.
Qed.
Lemma cnt_one {A} (f : A -> bool) l : (0 < cnt f l)%nat -> exists x, In x l /\ f x = true.
Proof. unfold cnt. intros H. destruct (filter f l) as [|x r] eqn:E; [cbn in H; lia|]. exists x. apply filter_In. rewrite E. left. reflexivity. Qed.
Lemma fold_parity {A} (c : A -> bool) l : forall b, fold_left (fun inside e => if c e then negb inside else inside) l b = xorb b (Nat.odd (cnt c l)).
Proof.
  induction l as [|a l IH]; intros b; [cbn; destruct b; reflexivity|]. cbn [fold_left]. rewrite IH, cnt_cons. destruct (c a); [|reflexivity].
  cbn [Nat.add]. rewrite Nat.odd_succ, <- Nat.negb_odd. destruct b, (Nat.odd (cnt c l)); reflexivity.
Qed.

(** ** the edges *)
Lemma combine_rot {A} (z : A) : forall t a, combine (a :: t) (t ++ [z]) = combine (a :: t) t ++ [(last (a :: t) a, z)].
Proof.
  induction t as [|b t IH]; intros a; [reflexivity|]. cbn [app]. change (combine (a :: b :: t) (b :: t ++ [z])) with ((a, b) :: combine (b :: t) (t ++ [z])). rewrite IH.
  change (combine (a :: b :: t) (b :: t)) with ((a, b) :: combine (b :: t) t). cbn [app]. do 3 f_equal. f_equal.
  revert a b IH. clear. induction t as [|c t IH]; intros; [reflexivity|]. change (last (a :: b :: c :: t) a) with (last (b :: c :: t) a). change (last (b :: c :: t) b) with (last (c :: t) b).
  change (last (b :: c :: t) a) with (last (c :: t) a). clear. revert c. induction t as [|d t IH]; intros c; [reflexivity|]. exact (IH d).
Qed.
Lemma prev_next P : Permutation (prev_pairs P) (next_pairs P).
Proof.
  unfold prev_pairs, next_pairs. destruct P as [|a t]; [constructor|]. rewrite combine_rot.
  change (combine (last (a :: t) a :: a :: t) (a :: t)) with ((last (a :: t) a, a) :: combine (a :: t) t). apply Permutation_cons_append.
Qed.
Lemma nth_map_seq {A} (f : nat -> A) n i d : (i < n)%nat -> nth i (map f (seq 0 n)) d = f i.
Proof. intros H. rewrite (nth_indep _ d (f 0%nat)) by (rewrite map_length, seq_length; exact H). rewrite map_nth, seq_nth by exact H. reflexivity. Qed.
Lemma next_pairs_seq P : next_pairs P = map (fun i => (pt P i, pt P (succ_in P i))) (seq 0 (length P)).
Proof.
  destruct P as [|a t]; [reflexivity|]. unfold next_pairs.
  assert (length (t ++ [a]) = length (a :: t)) as L by (rewrite app_length; cbn; lia).
  apply (nth_ext _ _ (V2 0 0, V2 0 0) (V2 0 0, V2 0 0)); [rewrite combine_length, L, Nat.min_id, map_length, seq_length; reflexivity|].
  intros i Hi. rewrite combine_length, L, Nat.min_id in Hi. rewrite combine_nth by (symmetry; exact L).
  rewrite nth_map_seq by exact Hi. f_equal. unfold succ_in, pt. destruct (Nat.eqb_spec (S i) (length (a :: t))) as [E|E]; cbn [length] in *.
  - rewrite app_nth2 by lia. replace (i - length t)%nat with 0%nat by lia. reflexivity.
  - rewrite app_nth1 by lia. reflexivity.
Qed.
Definition cross_at (P : list vec2) (p : vec2) (i : nat) : bool := crosses p (pt P i) (pt P (succ_in P i)).
Lemma pip_count P p : point_in_polygon P p = Nat.odd (cnt (cross_at P p) (seq 0 (length P))).
Proof.
  unfold point_in_polygon. rewrite (fold_parity (fun e => crosses p (fst e) (snd e))). rewrite (cnt_perm _ _ _ (prev_next P)), next_pairs_seq, cnt_map.
  unfold cross_at. cbn [fst snd]. apply xorb_false_l.
Qed.

(** ** reversing the order of the vertices *)
Lemma rev_combine {A B} : forall (l : list A) (l' : list B), length l = length l' -> rev (combine l l') = combine (rev l) (rev l').
Proof.
  induction l as [|a l IH]; intros [|b l'] H; try discriminate; [reflexivity|]. cbn [combine rev]. rewrite IH by (cbn in H; lia).
  assert (length (rev l) = length (rev l')) as L by (rewrite !rev_length; cbn in H; lia). revert L. generalize (rev l) (rev l'). clear.
  induction l as [|x l IH]; intros [|y l'] L; try discriminate; [reflexivity|]. cbn [app combine]. rewrite IH by (cbn in L; lia). reflexivity.
Qed.
Lemma next_rot a u : Permutation (next_pairs (a :: u)) (next_pairs (u ++ [a])).
Proof.
  destruct u as [|b u]; [apply Permutation_refl|]. unfold next_pairs. cbn [app].
  change (combine (a :: b :: u) (b :: u ++ [a])) with ((a, b) :: combine (b :: u) (u ++ [a])).
  change (b :: u ++ [a]) with ((b :: u) ++ [a]).
  assert (forall {A} (l l' : list A) x y, length l = length l' -> combine (l ++ [x]) (l' ++ [y]) = combine l l' ++ [(x, y)]) as CA.
  { clear. intros A. induction l as [|c l IH]; intros [|d l'] x y L; try discriminate; [reflexivity|]. cbn [app combine]. rewrite IH by (cbn in L; lia). reflexivity. }
  rewrite CA by (rewrite app_length; cbn; lia). apply Permutation_cons_append.
Qed.
Lemma swap_combine {A} : forall (l l' : list A), map (fun e => (snd e, fst e)) (combine l l') = combine l' l.
Proof. induction l as [|a l IH]; intros [|b l']; try reflexivity. cbn [combine map]. rewrite IH. reflexivity. Qed.
Lemma next_rev P : Permutation (map (fun e => (snd e, fst e)) (next_pairs P)) (next_pairs (rev P)).
Proof.
  destruct P as [|a t]; [constructor|]. unfold next_pairs at 1. rewrite swap_combine. cbn [rev].
  rewrite <- (next_rot a (rev t)). unfold next_pairs.
  rewrite (Permutation_rev (combine (t ++ [a]) (a :: t))). rewrite rev_combine by (rewrite app_length; cbn; lia). rewrite rev_app_distr. cbn [rev app]. apply Permutation_refl.
Qed.
Lemma crosses_sym p a b : crosses p a b = crosses p b a.
Proof.
  unfold crosses. rewrite (orb_comm ((uy b <=? uy p) && _)). destruct (_ || _)%bool eqn:E; [|reflexivity]. cbn [andb].
  assert (uy a <> uy b) as N. { intros Q. rewrite Q in E. destruct (Qcleb_spec (uy b) (uy p)), (Qcltb_spec (uy p) (uy b)); cbn in E; try discriminate. qc_lra. }
  f_equal. field. split; intros Z; apply N; qc_lra.
Qed.
Lemma pip_rev P p : point_in_polygon (rev P) p = point_in_polygon P p.
Proof.
  unfold point_in_polygon. rewrite !(fold_parity (fun e => crosses p (fst e) (snd e))), !xorb_false_l. f_equal.
  rewrite (cnt_perm _ _ _ (prev_next (rev P))), (cnt_perm _ _ _ (prev_next P)), <- (cnt_perm _ _ _ (next_rev P)), cnt_map.
  apply cnt_ext. intros e _. cbn [fst snd]. apply crosses_sym.
Qed.

(** ** edges that go up or down through the height of the point *)
Definition lo (P : list vec2) (p : vec2) (i : nat) : bool := uy (pt P i) <=? uy p.
Definition up (P : list vec2) (p : vec2) (i : nat) : bool := lo P p i && negb (lo P p (succ_in P i)).
Definition dn (P : list vec2) (p : vec2) (i : nat) : bool := negb (lo P p i) && lo P p (succ_in P i).
Lemma leb_negb a b : negb (a <=? b) = (b <? a).
Proof. destruct (Qcleb_spec a b), (Qcltb_spec b a); try reflexivity; exfalso; qc_lra. Qed.

Lemma succ_seq P : P <> [] -> Permutation (map (succ_in P) (seq 0 (length P))) (seq 0 (length P)).
Proof.
  destruct P as [|a t]; [congruence|intros _]. cbn [length]. rewrite seq_S, map_app. cbn [map Nat.add].
  assert (map (succ_in (a :: t)) (seq 0 (length t)) = seq 1 (length t)) as ->.
  { rewrite <- seq_shift. apply map_ext_in. intros i Hi. apply in_seq in Hi. unfold succ_in. cbn [length]. destruct (Nat.eqb_spec (S i) (S (length t))); [lia|reflexivity]. }
  unfold succ_in. cbn [length]. rewrite Nat.eqb_refl. rewrite <- Permutation_cons_append. rewrite <- seq_S. apply Permutation_refl.
Qed.
Lemma up_dn P p : cnt (up P p) (seq 0 (length P)) = cnt (dn P p) (seq 0 (length P)).
Proof.
  destruct P as [|a t]; [reflexivity|]. set (P := a :: t). set (l := seq 0 (length P)).
  assert (cnt (lo P p) l = cnt (fun i => lo P p (succ_in P i)) l) as E.
  { rewrite <- (cnt_map (lo P p) (succ_in P)). apply cnt_perm. symmetry. apply succ_seq. discriminate. }
  rewrite (cnt_split (lo P p) (fun i => lo P p (succ_in P i))) in E. rewrite (cnt_split (fun i => lo P p (succ_in P i)) (lo P p)) in E.
  rewrite (cnt_ext (fun x => lo P p (succ_in P x) && lo P p x) (fun x => lo P p x && lo P p (succ_in P x))) in E by (intros; apply andb_comm).
  rewrite (cnt_ext (fun x => lo P p (succ_in P x) && negb (lo P p x)) (dn P p)) in E by (intros; apply andb_comm).
  unfold up at 1. lia.
Qed.
Lemma cross_straddle P p i : cross_at P p i = true -> up P p i = true \/ dn P p i = true.
Proof.
  unfold cross_at, crosses, up, dn, lo. rewrite !leb_negb. intros H. apply andb_true_iff in H. destruct H as (H & _). apply orb_true_iff in H.
  destruct H as [H|H]; [right|left]; [rewrite andb_comm|]; exact H.
Qed.
Lemma up_not_dn P p i : up P p i = true -> dn P p i = false.
Proof. unfold up, dn. destruct (lo P p i); [reflexivity|discriminate]. Qed.
Lemma cross_sum P p l : cnt (cross_at P p) l = (cnt (fun i => up P p i && cross_at P p i) l + cnt (fun i => dn P p i && cross_at P p i) l)%nat.
Proof.
  rewrite (cnt_split (cross_at P p) (up P p)). f_equal; apply cnt_ext; intros i _; [apply andb_comm|].
  destruct (cross_at P p i) eqn:E; cbn [andb]; [|rewrite andb_false_r; reflexivity].
  destruct (cross_straddle _ _ _ E) as [U|D]; [rewrite U, (up_not_dn _ _ _ U); reflexivity|].
  rewrite D. destruct (up P p i) eqn:U; [apply up_not_dn in U; congruence|reflexivity].
Qed.

(** the crossing of an edge with the height of p *)
Definition cx (a b p : vec2) : Qc := (ux a - ux b) * (uy p - uy b) / (uy a - uy b) + ux b.
Lemma cx_between a b p : uy a <> uy b -> (uy a <= uy p /\ uy p <= uy b) \/ (uy b <= uy p /\ uy p <= uy a) ->
  exists s, 0 <= s /\ s <= 1 /\ cx a b p = (1 - s) * ux a + s * ux b /\ uy p = (1 - s) * uy a + s * uy b.
Proof.
  intros N H. exists ((uy p - uy a) / (uy b - uy a)). assert (uy b - uy a <> 0) as N1 by (intros Z; apply N; qc_lra). assert (uy a - uy b <> 0) as N2 by (intros Z; apply N; qc_lra).
  split; [|split; [|split]].
  - destruct H as [(H1 & H2)|(H1 & H2)].
    + assert (0 < uy b - uy a) as P by (apply Qc_neq_or in N1; destruct N1; [exfalso|assumption]; qc_lra). apply (mul_nonneg_cancel (uy b - uy a)); [exact P|].
      replace ((uy b - uy a) * ((uy p - uy a) / (uy b - uy a))) with (uy p - uy a) by (field; exact N1). qc_lra.
    + assert (0 < uy a - uy b) as P by (apply Qc_neq_or in N2; destruct N2; [exfalso|assumption]; qc_lra). apply (mul_nonneg_cancel (uy a - uy b)); [exact P|].
      replace ((uy a - uy b) * ((uy p - uy a) / (uy b - uy a))) with (uy a - uy p) by (field; exact N1). qc_lra.
  - cut (0 <= 1 - (uy p - uy a) / (uy b - uy a)); [intros; qc_lra|]. replace (1 - (uy p - uy a) / (uy b - uy a)) with ((uy b - uy p) / (uy b - uy a)) by (field; exact N1). destruct H as [(H1 & H2)|(H1 & H2)].
    + assert (0 < uy b - uy a) as P by (apply Qc_neq_or in N1; destruct N1; [exfalso|assumption]; qc_lra). apply (mul_nonneg_cancel (uy b - uy a)); [exact P|].
      replace ((uy b - uy a) * ((uy b - uy p) / (uy b - uy a))) with (uy b - uy p) by (field; exact N1). qc_lra.
    + assert (0 < uy a - uy b) as P by (apply Qc_neq_or in N2; destruct N2; [exfalso|assumption]; qc_lra). apply (mul_nonneg_cancel (uy a - uy b)); [exact P|].
      replace ((uy a - uy b) * ((uy b - uy p) / (uy b - uy a))) with (uy p - uy b) by (field; exact N1). qc_lra.
  - unfold cx. field. split; assumption.
  - field. exact N1.
Qed.
Lemma comb_bound s x y m : 0 <= s -> s <= 1 -> x <= m -> y <= m -> (1 - s) * x + s * y <= m.
Proof. intros. pose proof (Qcmul_nonneg s (m - y) ltac:(assumption) ltac:(qc_lra)). pose proof (Qcmul_nonneg (1 - s) (m - x) ltac:(qc_lra) ltac:(qc_lra)). qc_nra. Qed.
Lemma comb_bound_lt s x y m : 0 <= s -> s <= 1 -> m < x -> m < y -> m < (1 - s) * x + s * y.
Proof.
  intros S0 S1 X Y. destruct (Qcleb_spec x y) as [L|L].
  - pose proof (Qcmul_nonneg s (y - x) S0 ltac:(qc_lra)). qc_nra.
  - pose proof (Qcmul_nonneg (1 - s) (x - y) ltac:(qc_lra) ltac:(qc_lra)). qc_nra.
Qed.
Lemma up_edge P p i : up P p i = true -> uy (pt P i) <= uy p /\ uy p < uy (pt P (succ_in P i)).
Proof. unfold up, lo. rewrite leb_negb. intros H. apply andb_true_iff in H. destruct H. qcb. split; assumption. Qed.
Lemma dn_edge P p i : dn P p i = true -> uy p < uy (pt P i) /\ uy (pt P (succ_in P i)) <= uy p.
Proof. unfold dn, lo. rewrite leb_negb. intros H. apply andb_true_iff in H. destruct H. qcb. split; assumption. Qed.
Lemma straddle_cross P p i : up P p i = true \/ dn P p i = true -> cross_at P p i = (ux p <? cx (pt P i) (pt P (succ_in P i)) p).
Proof.
  intros H. unfold cross_at, crosses, cx. replace (_ || _)%bool with true; [reflexivity|]. symmetry. apply orb_true_iff. destruct H as [H|H]; [right|left].
  - destruct (up_edge _ _ _ H). apply andb_true_iff. split; qcb; assumption.
  - destruct (dn_edge _ _ _ H). apply andb_true_iff. split; qcb; assumption.
Qed.
Lemma straddle_point P p i : up P p i = true \/ dn P p i = true ->
  exists s, 0 <= s /\ s <= 1 /\ cx (pt P i) (pt P (succ_in P i)) p = (1 - s) * ux (pt P i) + s * ux (pt P (succ_in P i)) /\ uy p = (1 - s) * uy (pt P i) + s * uy (pt P (succ_in P i)).
Proof.
  intros H. apply cx_between; destruct H as [H|H]; [destruct (up_edge _ _ _ H)|destruct (dn_edge _ _ _ H)|destruct (up_edge _ _ _ H)|destruct (dn_edge _ _ _ H)].
  - intros E. qc_lra.
  - intros E. qc_lra.
  - left. split; qc_lra.
  - right. split; qc_lra.
Qed.

(** outside the bounding box *)
Lemma pip_outside : forall P p,
  (forall q, In q P -> ux p < ux q) \/ (forall q, In q P -> ux q <= ux p) \/ (forall q, In q P -> uy p < uy q) \/ (forall q, In q P -> uy q <= uy p) ->
  point_in_polygon P p = false.
Proof.
  intros P p H. rewrite pip_count. rewrite cross_sum.
  assert (forall i, In i (seq 0 (length P)) -> In (pt P i) P /\ In (pt P (succ_in P i)) P) as IN by (intros i Hi; apply in_seq in Hi; split; apply nth_In; [lia|apply succ_lt; lia]).
  destruct H as [H|H].
  - assert (forall i, In i (seq 0 (length P)) -> up P p i = true \/ dn P p i = true -> cross_at P p i = true) as C.
    { intros i Hi S. rewrite straddle_cross by exact S. destruct (straddle_point P p i S) as (s & S0 & S1 & -> & _). destruct (IN i Hi). apply Qcltb_iff. apply comb_bound_lt; auto. }
    rewrite (cnt_ext (fun i => up P p i && cross_at P p i) (up P p)), (cnt_ext (fun i => dn P p i && cross_at P p i) (dn P p)).
    + rewrite up_dn. replace (_ + _)%nat with (2 * cnt (dn P p) (seq 0 (length P)))%nat by lia. rewrite Nat.odd_mul. reflexivity.
    + intros i Hi. destruct (dn P p i) eqn:E; [rewrite C; auto|reflexivity].
    + intros i Hi. destruct (up P p i) eqn:E; [rewrite C; auto|reflexivity].
  - assert (forall i, In i (seq 0 (length P)) -> up P p i = true \/ dn P p i = true -> cross_at P p i = false) as C.
    { intros i Hi S. destruct (IN i Hi) as (I1 & I2). destruct H as [H|[H|H]].
      - rewrite straddle_cross by exact S. destruct (straddle_point P p i S) as (s & S0 & S1 & -> & _). pose proof (comb_bound s _ _ (ux p) S0 S1 (H _ I1) (H _ I2)) as B.
        destruct (Qcltb_spec (ux p) ((1 - s) * ux (pt P i) + s * ux (pt P (succ_in P i)))) as [L|]; [exfalso; qc_lra|reflexivity].
      - exfalso. specialize (H _ I1) as H1. specialize (H _ I2) as H2. destruct S as [S|S]; [destruct (up_edge _ _ _ S)|destruct (dn_edge _ _ _ S)]; qc_lra.
      - exfalso. specialize (H _ I1) as H1. specialize (H _ I2) as H2. destruct S as [S|S]; [destruct (up_edge _ _ _ S)|destruct (dn_edge _ _ _ S)]; qc_lra. }
    rewrite (proj2 (cnt_zero _ _)), (proj2 (cnt_zero _ _)); [reflexivity| |].
    + intros i Hi. destruct (dn P p i) eqn:E; [rewrite C; auto|reflexivity].
    + intros i Hi. destruct (up P p i) eqn:E; [rewrite C; auto|reflexivity].
Qed.

(** ** starting vertex and diagonals *)
Definition chain (a : vec2) (l : list vec2) (z : vec2) : list (vec2 * vec2) := combine (a :: l) (l ++ [z]).
Lemma chain_app z : forall l1 a b l2, chain a (l1 ++ b :: l2) z = chain a l1 b ++ chain b l2 z.
Proof.
  induction l1 as [|c l1 IH]; intros a b l2; [reflexivity|]. unfold chain in *. cbn [app]. change (combine (a :: c :: l1 ++ b :: l2) (c :: (l1 ++ b :: l2) ++ [z])) with ((a, c) :: combine (c :: l1 ++ b :: l2) ((l1 ++ b :: l2) ++ [z])).
  rewrite IH. reflexivity.
Qed.
Lemma pip_chain a l p : point_in_polygon (a :: l) p = Nat.odd (cnt (fun e => crosses p (fst e) (snd e)) (chain a l a)).
Proof. unfold point_in_polygon. rewrite (fold_parity (fun e => crosses p (fst e) (snd e))), xorb_false_l, (cnt_perm _ _ _ (prev_next (a :: l))). reflexivity. Qed.
Lemma pip_rotate : forall l1 l2 p, point_in_polygon (l2 ++ l1) p = point_in_polygon (l1 ++ l2) p.
Proof.
  intros [|a l1] [|b l2] p; rewrite ?app_nil_r; try reflexivity. cbn [app]. rewrite !pip_chain, !chain_app, !cnt_app, Nat.add_comm. reflexivity.
Qed.
Lemma pip_cut : forall a b l1 l2 p, point_in_polygon (a :: l1 ++ b :: l2) p = xorb (point_in_polygon (a :: l1 ++ [b]) p) (point_in_polygon (b :: l2 ++ [a]) p).
Proof.
  intros. rewrite !pip_chain, !chain_app, !cnt_app. rewrite !Nat.odd_add. unfold chain at 4 6. cbn [app combine]. unfold cnt at 4 6. cbn [filter fst snd]. rewrite (crosses_sym p a b).
  destruct (Nat.odd (cnt _ (chain a l1 b))), (Nat.odd (cnt _ (chain b l2 a))), (crosses p b a); reflexivity.
Qed.
