(** Rules for the loop combinator and array accesses of Base.v. *)
From Coq Require Import List ZArith Lia Bool.
From Verif Require Import Base.
Import ListNotations.

Lemma bind_ok {A B} (r : res A) (f : A -> res B) a : r = Ok a -> bind r f = f a.
Proof. intros ->. reflexivity. Qed.

Lemma for_up_inv {S} (P : nat -> S -> Prop) (body : nat -> S -> res S) count start s :
  P start s ->
  (forall i s, start <= i -> i < start + count -> P i s -> exists s', body i s = Ok s' /\ P (Datatypes.S i) s') ->
  exists s', for_up count start body s = Ok s' /\ P (start + count) s'.
Proof.
  revert start s. induction count; intros start s H0 Hs; cbn [for_up].
  - exists s. rewrite Nat.add_0_r. auto.
  - destruct (Hs start s) as (s1 & E & H1); [lia|lia|assumption|].
    rewrite E. cbn [bind].
    destruct (IHcount (Datatypes.S start) s1 H1) as (s2 & E2 & H2).
    { intros. apply Hs; [lia|lia|assumption]. }
    exists s2. split; [assumption|]. replace (start + Datatypes.S count) with (Datatypes.S start + count) by lia. assumption.
Qed.

Lemma get_ok {A} (l : list A) i d : i < length l -> get l i = Ok (nth i l d).
Proof.
  intros H. unfold get. rewrite (nth_error_nth' l d H). reflexivity.
Qed.
Lemma get_inv {A} (l : list A) i d a : get l i = Ok a -> i < length l /\ a = nth i l d.
Proof.
  unfold get. destruct (nth_error l i) eqn:E; [|discriminate]. cbn. intros H. injection H as <-. split.
  - apply nth_error_Some. congruence.
  - symmetry. apply nth_error_nth. assumption.
Qed.
Lemma getZ_ok {A} (l : list A) i d : (0 <= i)%Z -> Z.to_nat i < length l -> getZ l i = Ok (nth (Z.to_nat i) l d).
Proof.
  intros H H2. unfold getZ. destruct (Z.ltb_spec i 0); [lia|]. apply get_ok. assumption.
Qed.

Lemma set_nth_ok {A} (l : list A) i x : i < length l ->
  exists l', set_nth l i x = Ok l' /\ length l' = length l /\
    forall j d, nth j l' d = if Nat.eqb j i then x else nth j l d.
Proof.
  revert i. induction l as [|h t IH]; intros i H; [cbn in H; lia|].
  destruct i; cbn [set_nth].
  - exists (x :: t). split; [reflexivity|]. split; [reflexivity|]. intros [|j] d; reflexivity.
  - destruct (IH i) as (t' & E & L & N); [cbn in H; lia|].
    rewrite E. cbn [bind]. exists (h :: t'). split; [reflexivity|]. split; [cbn; congruence|].
    intros [|j] d; [reflexivity|]. cbn. apply N.
Qed.
Lemma set_nthZ_ok {A} (l : list A) i x : (0 <= i)%Z -> Z.to_nat i < length l ->
  exists l', set_nthZ l i x = Ok l' /\ length l' = length l /\
    forall j d, nth j l' d = if Nat.eqb j (Z.to_nat i) then x else nth j l d.
Proof.
  intros H H2. unfold set_nthZ. destruct (Z.ltb_spec i 0); [lia|]. apply set_nth_ok. assumption.
Qed.

Lemma nth_firstn_lt {A} (l : list A) i n d : i < n -> nth i (firstn n l) d = nth i l d.
Proof.
  revert i n. induction l as [|a l IH]; intros i n H; [rewrite firstn_nil; reflexivity|].
  destruct n; [lia|]. cbn. destruct i; [reflexivity|]. apply IH. lia.
Qed.
Lemma nth_skipn_add {A} (l : list A) i n d : nth i (skipn n l) d = nth (n + i) l d.
Proof.
  revert n. induction l as [|a l IH]; intros n; [rewrite skipn_nil; destruct i, n; reflexivity|].
  destruct n; [reflexivity|]. cbn. apply IH.
Qed.

Lemma nth_ext_len {A} (l l' : list A) d : length l = length l' -> (forall i, i < length l -> nth i l d = nth i l' d) -> l = l'.
Proof. intros. eapply nth_ext; eauto. Qed.
