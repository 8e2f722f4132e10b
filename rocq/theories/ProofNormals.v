(** The normals of a polygon. *)
From Coq Require Import List ZArith Reals Bool Lra Lia.
From Verif Require Import Base BaseFacts LoopFacts ModelMemView ModelPlane ModelNewton ModelVecOps ModelUtil SpecPlane SpecVecOps SpecUtil ProofPlane ProofVecOps ProofUtil.
Import ListNotations.
Local Open Scope R_scope.

Lemma v2r_eq a b x y : a = x -> b = y -> RV2 a b = RV2 x y. Proof. intros; subst; reflexivity. Qed.
Lemma edge_get P i p q : edge P i p q -> get P (Nat.modulo (i + 1) (length P)) = Ok q /\ get P i = Ok p /\ (i < length P)%nat.
Proof.
  intros [Hp Hq]. assert (i < length P)%nat as L by (apply nth_error_Some; congruence).
  split; [|split; [apply get_nth_ok, Hp|exact L]]. apply get_nth_ok. rewrite <- Hq. f_equal.
  destruct (Nat.eqb_spec (i + 1) (length P)) as [E|NE]; [rewrite E, Nat.mod_same; lia|apply Nat.mod_small; lia].
Qed.
Lemma edge_exists P i : (i < length P)%nat -> exists p q, edge P i p q.
Proof.
  intros L. destruct (nth_error P i) as [p|] eqn:Ep; [|apply nth_error_None in Ep; lia].
  destruct (nth_error P (if Nat.eqb (i + 1) (length P) then 0 else i + 1)) as [q|] eqn:Eq.
  - exists p, q. split; assumption.
  - apply nth_error_None in Eq. destruct (Nat.eqb_spec (i + 1) (length P)); lia.
Qed.
Lemma edge_fun P i p q p' q' : edge P i p q -> edge P i p' q' -> p = p' /\ q = q'.
Proof. intros [A B] [C D]. rewrite A in C. rewrite B in D. split; congruence. Qed.

Lemma edge_normal_perp p q : perpendicular (edge_normal p q) p q.
Proof. unfold perpendicular, edge_normal. cbn. ring. Qed.
Lemma edge_normal_zero p q : edge_normal p q = RV2 0 0 -> p = q.
Proof. destruct p, q. unfold edge_normal. cbn. intros E. injection E as E1 E2. apply v2r_eq; lra. Qed.
Lemma edge_normal_same p : edge_normal p p = RV2 0 0.
Proof. destruct p. unfold edge_normal. cbn. apply v2r_eq; lra. Qed.
Lemma edge_normal_out P i p q x : counterclockwise P -> edge P i p q -> In x P -> outward (edge_normal p q) p x.
Proof. intros C E I. specialize (C i p q x E I). unfold outward, edge_normal. cbn. lra. Qed.
Lemma edge_normal_len p q : r2len (edge_normal p q) = r2len (RV2 (r2x q - r2x p) (r2y q - r2y p)).
Proof. unfold r2len, edge_normal, r2dot. cbn. f_equal. ring. Qed.

(** the unit vector of a non-zero vector *)
Definition unit_of (a : v2r) : v2r := RV2 (r2x a / r2len a) (r2y a / r2len a).
Lemma unit_of_len a : a <> RV2 0 0 -> r2len (unit_of a) = 1.
Proof.
  intros N. pose proof (r2len_pos a N) as L. pose proof (r2len_sq a) as Sq. unfold r2len at 1, unit_of, r2dot. cbn.
  replace (r2x a / r2len a * (r2x a / r2len a) + r2y a / r2len a * (r2y a / r2len a)) with (r2dot a a / (r2len a * r2len a)).
  - rewrite Sq. rewrite <- Sq. unfold Rdiv. rewrite Rinv_r by nra. apply sqrt_1.
  - unfold r2dot. field. lra.
Qed.
Lemma unit_of_perp a p q : a <> RV2 0 0 -> perpendicular a p q -> perpendicular (unit_of a) p q.
Proof.
  intros N H. pose proof (r2len_pos a N). unfold perpendicular, unit_of in *. cbn.
  transitivity ((r2x a * (r2x q - r2x p) + r2y a * (r2y q - r2y p)) / r2len a); [field; lra|]. rewrite H. unfold Rdiv. ring.
Qed.
Lemma unit_of_out a p x : a <> RV2 0 0 -> outward a p x -> outward (unit_of a) p x.
Proof.
  intros N H. pose proof (r2len_pos a N) as L. unfold outward, unit_of in *. cbn.
  replace (r2x a / r2len a * (r2x x - r2x p) + r2y a / r2len a * (r2y x - r2y p)) with ((r2x a * (r2x x - r2x p) + r2y a * (r2y x - r2y p)) * / r2len a) by (field; lra).
  pose proof (Rinv_0_lt_compat _ L). nra.
Qed.
Lemma unit_of_nz a : a <> RV2 0 0 -> unit_of a <> RV2 0 0.
Proof. intros N E. pose proof (unit_of_len a N) as L. rewrite E in L. unfold r2len, r2dot in L. cbn in L. replace (0 * 0 + 0 * 0) with 0 in L by ring. rewrite sqrt_0 in L. lra. Qed.

(** * polygonNormals *)
Lemma normals_loop f P : (forall i p q, edge P i p q -> f i = edge_normal p q) -> forall cnt i old,
  (i + cnt <= length P)%nat ->
  for_up cnt i (fun i normals => let j := Nat.modulo (i + 1) (length P) in q <- get P j ;; p <- get P i ;;
    let normals := normals ++ [edge_normal p q] in if false then x <- get normals i ;; u <- r2unit x ;; set_nth normals i u else Ok normals) old = Ok (old ++ map f (seq i cnt)).
Proof.
  intros Hf. induction cnt as [|cnt IH]; intros i old L; cbn [for_up seq map]; [rewrite app_nil_r; reflexivity|].
  destruct (edge_exists P i ltac:(lia)) as (p & q & E). destruct (edge_get P i p q E) as (G1 & G2 & _).
  cbv zeta. rewrite G1. cbn [bind]. rewrite G2. cbn [bind]. rewrite (IH (S i)) by lia.
  rewrite <- app_assoc. cbn [app]. rewrite (Hf i p q E). reflexivity.
Qed.
Definition normal_at (P : list v2r) (i : nat) : v2r :=
  match get P i, get P (Nat.modulo (i + 1) (length P)) with Ok p, Ok q => edge_normal p q | _, _ => RV2 0 0 end.
Lemma normal_at_edge P i p q : edge P i p q -> normal_at P i = edge_normal p q.
Proof. intros E. destruct (edge_get P i p q E) as (G1 & G2 & _). unfold normal_at. rewrite G1, G2. reflexivity. Qed.
Lemma nth_error_map_seq {A} (f : nat -> A) n i : (i < n)%nat -> nth_error (map f (seq 0 n)) i = Some (f i).
Proof. intros L. rewrite nth_error_map, (nth_error_nth' _ 0%nat) by (rewrite seq_length; lia). rewrite seq_nth by lia. reflexivity. Qed.
Lemma normals_plain P old : exists ns, polygon_normals false P old = Ok (old ++ ns) /\ length ns = length P /\
  forall i p q, edge P i p q -> exists n, nth_error ns i = Some n /\ perpendicular n p q /\
    r2len n = r2len (RV2 (r2x q - r2x p) (r2y q - r2y p)) /\ (counterclockwise P -> forall x, In x P -> outward n p x).
Proof.
  exists (map (normal_at P) (seq 0 (length P))). split; [|split].
  - unfold polygon_normals. apply normals_loop; [intros; apply normal_at_edge; assumption|lia].
  - rewrite map_length, seq_length. reflexivity.
  - intros i p q E. destruct (edge_get P i p q E) as (_ & _ & L). exists (normal_at P i). rewrite (normal_at_edge P i p q E).
    split; [rewrite nth_error_map_seq, (normal_at_edge P i p q E) by lia; reflexivity|].
    split; [apply edge_normal_perp|]. split; [apply edge_normal_len|]. intros C x I. eapply edge_normal_out; eassumption.
Qed.

Lemma get_snoc {A} (l : list A) x : get (l ++ [x]) (length l) = Ok x.
Proof. apply get_nth_ok. rewrite nth_error_app2, Nat.sub_diag by lia. reflexivity. Qed.
Lemma normals_unit_loop P : no_zero_edge P -> forall cnt i,
  (i + cnt <= length P)%nat ->
  for_up cnt i (fun i normals => let j := Nat.modulo (i + 1) (length P) in q <- get P j ;; p <- get P i ;;
    let normals := normals ++ [edge_normal p q] in if true then x <- get normals i ;; u <- r2unit x ;; set_nth normals i u else Ok normals)
    (map (fun i => unit_of (normal_at P i)) (seq 0 i)) = Ok (map (fun i => unit_of (normal_at P i)) (seq 0 (i + cnt))).
Proof.
  intros NZ. induction cnt as [|cnt IH]; intros i L; cbn [for_up]; [rewrite Nat.add_0_r; reflexivity|].
  destruct (edge_exists P i ltac:(lia)) as (p & q & E). destruct (edge_get P i p q E) as (G1 & G2 & _).
  cbv zeta. rewrite G1. cbn [bind]. rewrite G2. cbn [bind].
  set (l := map (fun i => unit_of (normal_at P i)) (seq 0 i)). assert (length l = i) as Ll by (unfold l; rewrite map_length, seq_length; reflexivity).
  rewrite <- Ll at 1. rewrite get_snoc. cbn [bind].
  assert (edge_normal p q <> RV2 0 0) as N by (intros Z; exact (NZ i p q E (edge_normal_zero p q Z))).
  rewrite (unit2_ok _ N). cbn [bind]. rewrite <- Ll at 1. rewrite set_nth_split. cbn [bind].
  specialize (IH (S i) ltac:(lia)). rewrite seq_S, map_app in IH. cbn [map] in IH. rewrite Nat.add_0_l, (normal_at_edge P i p q E) in IH.
  fold l in IH. unfold unit_of at 1 in IH. rewrite IH. f_equal. f_equal. f_equal. lia.
Qed.
Lemma normals_unit P : no_zero_edge P -> exists ns, polygon_normals true P [] = Ok ns /\ length ns = length P /\
  forall i p q, edge P i p q -> exists n, nth_error ns i = Some n /\ perpendicular n p q /\
    r2len n = 1 /\ (counterclockwise P -> forall x, In x P -> outward n p x).
Proof.
  intros NZ. exists (map (fun i => unit_of (normal_at P i)) (seq 0 (length P))). split; [|split].
  - unfold polygon_normals. exact (normals_unit_loop P NZ (length P) 0 ltac:(lia)).
  - rewrite map_length, seq_length. reflexivity.
  - intros i p q E. destruct (edge_get P i p q E) as (_ & _ & L). exists (unit_of (edge_normal p q)).
    assert (edge_normal p q <> RV2 0 0) as N by (intros Z; exact (NZ i p q E (edge_normal_zero p q Z))).
    split; [rewrite nth_error_map_seq, (normal_at_edge P i p q E) by lia; reflexivity|].
    split; [apply unit_of_perp, edge_normal_perp; exact N|]. split; [apply unit_of_len, N|].
    intros C x I. apply unit_of_out; [exact N|]. eapply edge_normal_out; eassumption.
Qed.
Lemma unit2_zero : r2unit (RV2 0 0) = Throw EInvalidArgument.
Proof. unfold r2unit, r2len, r2dot. cbn [r2x r2y]. replace (0 * 0 + 0 * 0) with 0 by ring. rewrite sqrt_0. destruct (Req_EM_T 0 0); [reflexivity|lra]. Qed.
Lemma v2r_zero_dec (a : v2r) : a = RV2 0 0 \/ a <> RV2 0 0.
Proof. destruct a as [x y]. destruct (Req_EM_T x 0) as [->|N]; [|right; congruence]. destruct (Req_EM_T y 0) as [->|N]; [left; reflexivity|right; congruence]. Qed.
Lemma normals_throw_loop P k p0 : edge P k p0 p0 -> forall cnt i ns,
  length ns = i -> (i <= k)%nat -> (k < i + cnt)%nat -> (i + cnt <= length P)%nat ->
  for_up cnt i (fun i normals => let j := Nat.modulo (i + 1) (length P) in q <- get P j ;; p <- get P i ;;
    let normals := normals ++ [edge_normal p q] in if true then x <- get normals i ;; u <- r2unit x ;; set_nth normals i u else Ok normals) ns = Throw EInvalidArgument.
Proof.
  intros EK. induction cnt as [|cnt IH]; intros i ns L H1 H2 H3; [lia|]. cbn [for_up].
  destruct (edge_exists P i ltac:(lia)) as (p & q & E). destruct (edge_get P i p q E) as (G1 & G2 & _).
  cbv zeta. rewrite G1. cbn [bind]. rewrite G2. cbn [bind]. rewrite <- L at 1. rewrite get_snoc. cbn [bind].
  destruct (v2r_zero_dec (edge_normal p q)) as [Z|N].
  - rewrite Z, unit2_zero. reflexivity.
  - rewrite (unit2_ok _ N). cbn [bind]. rewrite <- L at 1. rewrite set_nth_split. cbn [bind].
    destruct (Nat.eq_dec i k) as [->|NE].
    + exfalso. destruct (edge_fun P k p q p0 p0 E EK) as [-> ->]. exact (N (edge_normal_same p0)).
    + apply IH; [rewrite app_length; cbn; lia|lia..].
Qed.
Lemma normals_throw P i p : edge P i p p -> polygon_normals true P [] = Throw EInvalidArgument.
Proof. intros E. destruct (edge_get P i p p E) as (_ & _ & L). unfold polygon_normals. eapply normals_throw_loop; [exact E|reflexivity|lia..]. Qed.

Definition tri345 : list v2r := [RV2 0 0; RV2 4 0; RV2 0 3].
Lemma tri_edges i p q : edge tri345 i p q -> (p = RV2 0 0 /\ q = RV2 4 0) \/ (p = RV2 4 0 /\ q = RV2 0 3) \/ (p = RV2 0 3 /\ q = RV2 0 0).
Proof.
  intros [A B]. destruct i as [|[|[|i]]]; cbn in A, B.
  - injection A as <-. injection B as <-. auto.
  - injection A as <-. injection B as <-. auto.
  - injection A as <-. injection B as <-. auto.
  - destruct i; discriminate A.
Qed.
Lemma tri_good : no_zero_edge tri345 /\ counterclockwise tri345.
Proof.
  split.
  - intros i p q E H. destruct (tri_edges i p q E) as [[-> ->]|[[-> ->]|[-> ->]]]; injection H; lra.
  - intros i p q x E I. destruct (tri_edges i p q E) as [[-> ->]|[[-> ->]|[-> ->]]]; cbn in I;
      destruct I as [<-|[<-|[<-|[]]]]; cbn; lra.
Qed.
Lemma unit_345 : r2unit (RV2 3 4) = Ok (RV2 (3 / 5) (4 / 5)) /\ r2unit (RV2 0 2) = Ok (RV2 0 1) /\ r2unit (RV2 0 (-4)) = Ok (RV2 0 (-1)) /\ r2unit (RV2 (-3) 0) = Ok (RV2 (-1) 0).
Proof.
  assert (forall x, 0 <= x -> sqrt (x * x) = x) as SQ by (intros; apply sqrt_square; assumption).
  unfold r2unit, r2len, r2dot. cbn [r2x r2y].
  replace (3 * 3 + 4 * 4) with (5 * 5) by lra. replace (0 * 0 + 2 * 2) with (2 * 2) by lra. replace (0 * 0 + -4 * -4) with (4 * 4) by lra.
  replace (-3 * -3 + 0 * 0) with (3 * 3) by lra. rewrite !SQ by lra.
  destruct (Req_EM_T 5 0); [lra|]. destruct (Req_EM_T 2 0); [lra|]. destruct (Req_EM_T 4 0); [lra|]. destruct (Req_EM_T 3 0); [lra|].
  repeat split; f_equal; apply v2r_eq; field.
Qed.
Lemma normals_append_wrong : polygon_normals true tri345 [RV2 0 2] = Ok [RV2 0 1; RV2 0 (-1); RV2 (3 / 5) (4 / 5); RV2 (-3) 0].
Proof.
  destruct unit_345 as (U1 & U2 & U3 & U4).
  assert (edge_normal (RV2 0 0) (RV2 4 0) = RV2 0 (-4)) as E1 by (apply v2r_eq; cbn; lra).
  assert (edge_normal (RV2 4 0) (RV2 0 3) = RV2 3 4) as E2 by (apply v2r_eq; cbn; lra).
  assert (edge_normal (RV2 0 3) (RV2 0 0) = RV2 (-3) 0) as E3 by (apply v2r_eq; cbn; lra).
  unfold polygon_normals, tri345. cbn [length for_up]. cbv zeta.
  cbn [get nth_error Nat.add Nat.modulo Nat.divmod snd fst Nat.sub of_option bind app set_nth].
  rewrite E1, U2. cbn [get nth_error of_option bind app set_nth].
  rewrite E2, U3. cbn [get nth_error of_option bind app set_nth].
  rewrite E3, U1. reflexivity.
Qed.
Lemma normals_unit_case : polygon_normals true tri345 [] = Ok [RV2 0 (-1); RV2 (3 / 5) (4 / 5); RV2 (-1) 0].
Proof.
  destruct unit_345 as (U1 & U2 & U3 & U4).
  assert (edge_normal (RV2 0 0) (RV2 4 0) = RV2 0 (-4)) as E1 by (apply v2r_eq; cbn; lra).
  assert (edge_normal (RV2 4 0) (RV2 0 3) = RV2 3 4) as E2 by (apply v2r_eq; cbn; lra).
  assert (edge_normal (RV2 0 3) (RV2 0 0) = RV2 (-3) 0) as E3 by (apply v2r_eq; cbn; lra).
  unfold polygon_normals, tri345. cbn [length for_up]. cbv zeta.
  cbn [get nth_error Nat.add Nat.modulo Nat.divmod snd fst Nat.sub of_option bind app set_nth].
  rewrite E1, U3. cbn [get nth_error of_option bind app set_nth].
  rewrite E2, U1. cbn [get nth_error of_option bind app set_nth].
  rewrite E3, U4. reflexivity.
Qed.
