(** Proofs about the ownership of the memory of views. *)
From Coq Require Import List Arith Bool Lia.
From Verif Require Import ModelOwner SpecOwner.
Import ListNotations.

Lemma put_nth l : forall i x j, nth_error (put l i x) j = if Nat.eqb i j then match nth_error l j with Some _ => Some x | None => None end else nth_error l j.
Proof.
  induction l as [|a l IH]; intros [|i] x [|j]; cbn; try reflexivity; [destruct (Nat.eqb i j); reflexivity|]. apply IH.
Qed.
Lemma alive_some s v x : alive s v = Some x <-> nth_error (views s) v = Some (Some x).
Proof. unfold alive. destruct (nth_error (views s) v) as [[y|]|]; split; congruence. Qed.
Lemma freed_iff s b : is_freed s b = true <-> In b (freed s).
Proof.
  unfold is_freed. rewrite existsb_exists. split; [intros (x & H & E); apply Nat.eqb_eq in E; subst; exact H|]. intros H. exists b. split; [exact H|apply Nat.eqb_refl].
Qed.
Lemma freed_not s b : is_freed s b = false <-> ~ In b (freed s).
Proof. rewrite <- freed_iff. destruct (is_freed s b); split; congruence. Qed.
Lemma app_nth A (l : list A) x i y : nth_error (l ++ [x]) i = Some y -> nth_error l i = Some y \/ (i = length l /\ y = x).
Proof.
  destruct (lt_eq_lt_dec i (length l)) as [[H|H]|H].
  - rewrite nth_error_app1 by exact H. auto.
  - rewrite nth_error_app2 by lia. subst i. rewrite Nat.sub_diag. cbn. intros [= ->]. auto.
  - rewrite nth_error_app2 by lia. destruct (i - length l) as [|[|k]] eqn:E; try lia; cbn; discriminate.
Qed.
Lemma app_old A (l : list A) x i y : nth_error l i = Some y -> nth_error (l ++ [x]) i = Some y.
Proof. intros H. rewrite nth_error_app1; [exact H|]. apply nth_error_Some. congruence. Qed.
Lemma app_new A (l : list A) x : nth_error (l ++ [x]) (length l) = Some x.
Proof. rewrite nth_error_app2 by lia. rewrite Nat.sub_diag. reflexivity. Qed.

(** ** what holds after every history *)
Definition wf (s : state) : Prop :=
  (forall v b m, nth_error (views s) v = Some (Some (View b m)) -> (m = true -> nth_error (buffers s) b = Some Malloc) /\ exists k, nth_error (buffers s) b = Some k) /\
  (forall b, In b (freed s) -> nth_error (buffers s) b = Some Malloc).
Ltac cases H := repeat match type of H with
  | match alive ?s ?v with _ => _ end = _ => let E := fresh "EA" in let d := fresh "d" in let m := fresh "m" in destruct (alive s v) as [[d m]|] eqn:E; [apply alive_some in E|try discriminate H]
  | (if ?b then _ else _) = _ => destruct b eqn:?; try discriminate H
  | match nth_error (buffers ?s) ?b with _ => _ end = _ => destruct (nth_error (buffers s) b) as [[]|] eqn:?; try discriminate H
  end; try discriminate H.
Lemma wf_step o s s' : wf s -> step o s = Done s' -> wf s'.
Proof.
  intros (W1 & W2) H. destruct o as [|b|v|v|v w|v| |v|v]; cbn [step] in H; cases H; injection H as <-; unfold add_view; split; cbn [buffers freed views v_data v_managed] in *.
  all: try (intros b0 Hb; first [apply app_old; apply W2; exact Hb|apply W2; exact Hb]).
  all: try exact W1.
  - intros v b mq Hv. destruct (W1 v b mq Hv) as (A & k & B). split; [intros M; apply app_old; auto|exists k; apply app_old; exact B].
  - intros v b0 mq Hv. apply app_nth in Hv as [Hv|(_ & E)]; [exact (W1 v b0 mq Hv)|]. injection E as -> ->. split; [discriminate|eauto].
  - intros v0 b mq Hv. apply app_nth in Hv as [Hv|(_ & E)].
    + destruct (W1 v0 b mq Hv) as (A & k & B). split; [intros M; apply app_old; auto|exists k; apply app_old; exact B].
    + injection E as -> ->. split; [intros _; apply app_new|eexists; apply app_new].
  - intros v0 b mq Hv. apply app_nth in Hv as [Hv|(_ & E)]; [exact (W1 v0 b mq Hv)|]. injection E as -> ->. exact (W1 _ _ _ EA).
  - intros v0 b mq Hv. rewrite put_nth in Hv. destruct (Nat.eqb v v0); [|exact (W1 v0 b mq Hv)]. destruct (nth_error (views s) v0); [|discriminate]. injection Hv as -> ->. eapply W1. eassumption.
  - intros v0 b mq Hv. apply app_nth in Hv as [Hv|(_ & E)]; [exact (W1 v0 b mq Hv)|]. injection E as -> ->. split; [discriminate|]. exact (proj2 (W1 _ _ _ EA)).
  - intros v0 b mq Hv. apply app_nth in Hv as [Hv|(_ & E)].
    + destruct (W1 v0 b mq Hv) as (A & k & B). split; [intros M; apply app_old; auto|exists k; apply app_old; exact B].
    + injection E as -> ->. split; [discriminate|eexists; apply app_new].
  - intros v0 b mq Hv. rewrite put_nth in Hv. destruct (Nat.eqb v v0); [destruct (nth_error (views s) v0); discriminate|]. exact (W1 v0 b mq Hv).
  - intros b Hb. apply in_app_or in Hb as [Hb|[<-|[]]]; [apply W2; exact Hb|assumption].
  - intros v0 b mq Hv. rewrite put_nth in Hv. destruct (Nat.eqb v v0); [destruct (nth_error (views s) v0); discriminate|]. exact (W1 v0 b mq Hv).
Qed.
Lemma run_inv (I : state -> Prop) : (forall o s s', I s -> step o s = Done s' -> I s') -> forall ops s s', I s -> run ops s = Done s' -> I s'.
Proof.
  intros H. induction ops as [|o t IH]; intros s s' Hs R; cbn [run] in R; [injection R as <-; exact Hs|].
  destruct (step o s) as [s1| | |] eqn:E; try discriminate. exact (IH s1 s' (H _ _ _ Hs E) R).
Qed.
Lemma wf_start : wf start.
Proof. split; [intros v b m Hv; destruct v; discriminate|intros b []]. Qed.
Lemma wf_reached s : reached s -> wf s.
Proof. intros (ops & H). exact (run_inv wf wf_step ops start s wf_start H). Qed.

Lemma deserialized_stays s b : reached s -> nth_error (buffers s) b = Some NewArray -> ~ In b (freed s).
Proof. intros R E H. apply (proj2 (wf_reached s R)) in H. congruence. Qed.

Lemma owns_alive s v b : owns s v b -> alive s v = Some (View b true).
Proof. intros H. apply alive_some. exact H. Qed.
Lemma double_free s v b : reached s -> owns s v b -> ~ In b (freed s) ->
  run [CopyConstruct v; Destroy v; Destroy (length (views s))] s = BadFree.
Proof.
  intros R O F. pose proof (proj1 (proj1 (wf_reached s R) v b true O) eq_refl) as M. cbn [run step]. rewrite (owns_alive _ _ _ O).
  assert (alive (add_view s (View b true)) v = Some (View b true)) as -> by (apply alive_some; apply app_old; exact O). cbn [v_managed v_data add_view buffers]. rewrite M.
  assert (is_freed (add_view s (View b true)) b = false) as -> by (apply freed_not; exact F). cbn [freed views].
  assert (v < length (views s)) as L by (apply nth_error_Some; rewrite O; discriminate).
  match goal with |- context [alive ?st (length (views s))] => assert (alive st (length (views s)) = Some (View b true)) as -> end.
  { apply alive_some. cbn [views]. rewrite put_nth. destruct (Nat.eqb_spec v (length (views s))); [lia|]. apply app_new. }
  cbn [v_managed v_data buffers]. rewrite ?M. match goal with |- context [is_freed ?st b] => assert (is_freed st b = true) as -> end; [|reflexivity].
  apply freed_iff. cbn [freed]. apply in_or_app. right. left. reflexivity.
Qed.
Lemma dangling s v b : reached s -> owns s v b -> ~ In b (freed s) ->
  run [SliceView v; Destroy v; Read (length (views s))] s = DeadRead.
Proof.
  intros R O F. pose proof (proj1 (proj1 (wf_reached s R) v b true O) eq_refl) as M. cbn [run step]. rewrite (owns_alive _ _ _ O). cbn [v_data].
  assert (alive (add_view s (View b false)) v = Some (View b true)) as -> by (apply alive_some; apply app_old; exact O). cbn [v_managed v_data add_view buffers]. rewrite M.
  assert (is_freed (add_view s (View b false)) b = false) as -> by (apply freed_not; exact F). cbn [freed views].
  assert (v < length (views s)) as L by (apply nth_error_Some; rewrite O; discriminate).
  match goal with |- context [alive ?st (length (views s))] => assert (alive st (length (views s)) = Some (View b false)) as -> end.
  { apply alive_some. cbn [views]. rewrite put_nth. destruct (Nat.eqb_spec v (length (views s))); [lia|]. apply app_new. }
  cbn [v_managed v_data]. match goal with |- context [is_freed ?st b] => assert (is_freed st b = true) as -> end; [|reflexivity].
  apply freed_iff. cbn [freed]. apply in_or_app. right. left. reflexivity.
Qed.
Lemma program_readable s v b : reached s -> points_to s v b -> nth_error (buffers s) b = Some Program -> step (Read v) s = Done s.
Proof.
  intros R (m & P) B. cbn [step]. assert (alive s v = Some (View b m)) as -> by (apply alive_some; exact P). cbn [v_data].
  assert (is_freed s b = false) as ->; [|reflexivity]. apply freed_not. intros H. apply (proj2 (wf_reached s R)) in H. congruence.
Qed.

(** ** histories that do not copy owners *)
Ltac sub_flag := repeat match goal with E : ?m = true |- _ => is_var m; subst m | E : ?m = false |- _ => is_var m; subst m end.
Definition single (s : state) : Prop :=
  wf s /\ (forall v w b, owns s v b -> owns s w b -> v = w) /\ (forall v b, owns s v b -> ~ In b (freed s)).
Lemma in_range s v b m : wf s -> nth_error (views s) v = Some (Some (View b m)) -> b < length (buffers s).
Proof. intros (W & _) H. destruct (proj2 (W _ _ _ H)) as (k & E). apply nth_error_Some. congruence. Qed.
Lemma freed_range s b : wf s -> In b (freed s) -> b < length (buffers s).
Proof. intros (_ & W) H. apply nth_error_Some. rewrite (W b H). discriminate. Qed.
Lemma single_step o s s' : single s -> (forall v, (o = CopyConstruct v \/ exists w, o = Assign w v) -> forall b, ~ owns s v b) ->
  step o s = Done s' -> single s'.
Proof.
  intros (W & U & F) C H. pose proof (wf_step o s s' W H) as W'. split; [exact W'|]. clear W'. unfold owns in *.
  destruct o as [|b|v|v|v w|v| |v|v]; cbn [step] in H; cases H; injection H as <-; unfold add_view; cbn [buffers freed views v_data v_managed] in *; sub_flag.
  - auto.
  - split; [intros v w b0 A B|intros v b0 A]; (apply app_nth in A as [A|(_ & A)]; [|discriminate]); [apply app_nth in B as [B|(_ & B)]; [|discriminate]; exact (U _ _ _ A B)|exact (F _ _ A)].
  - split.
    + intros v1 v2 b A B. apply app_nth in A as [A|(LA & A)]; apply app_nth in B as [B|(LB & B)].
      * exact (U _ _ _ A B).
      * injection B as ->. pose proof (in_range _ _ _ _ W A). lia.
      * injection A as ->. pose proof (in_range _ _ _ _ W B). lia.
      * congruence.
    + intros v1 b A. apply app_nth in A as [A|(LA & A)]; [exact (F _ _ A)|]. injection A as ->. intros I. pose proof (freed_range _ _ W I). lia.
  - assert (m = false) as -> by (destruct m; [exfalso; exact (C v (or_introl eq_refl) _ EA)|reflexivity]).
    split; [intros v1 w b0 A B|intros v1 b0 A]; (apply app_nth in A as [A|(_ & A)]; [|discriminate]); [apply app_nth in B as [B|(_ & B)]; [|discriminate]; exact (U _ _ _ A B)|exact (F _ _ A)].
  - assert (m0 = false) as -> by (destruct m0; [exfalso; exact (C w (or_intror (ex_intro _ v eq_refl)) _ EA0)|reflexivity]).
    assert (forall u b, nth_error (put (views s) v (Some (View d0 false))) u = Some (Some (View b true)) -> nth_error (views s) u = Some (Some (View b true))) as K.
    { intros u b. rewrite put_nth. destruct (Nat.eqb v u); [|auto]. destruct (nth_error (views s) u); discriminate. }
    split; [intros v1 w1 b A B; exact (U _ _ _ (K _ _ A) (K _ _ B))|intros v1 b A; exact (F _ _ (K _ _ A))].
  - split; [intros v1 w b0 A B|intros v1 b0 A]; (apply app_nth in A as [A|(_ & A)]; [|discriminate]); [apply app_nth in B as [B|(_ & B)]; [|discriminate]; exact (U _ _ _ A B)|exact (F _ _ A)].
  - split; [intros v w b0 A B|intros v b0 A]; (apply app_nth in A as [A|(_ & A)]; [|discriminate]); [apply app_nth in B as [B|(_ & B)]; [|discriminate]; exact (U _ _ _ A B)|exact (F _ _ A)].
  - auto.
  - assert (forall u b, nth_error (put (views s) v None) u = Some (Some (View b true)) -> u <> v /\ nth_error (views s) u = Some (Some (View b true))) as K.
    { intros u b. rewrite put_nth. destruct (Nat.eqb_spec v u); [destruct (nth_error (views s) u); discriminate|]. auto. }
    split; [intros v1 w1 b A B; exact (U _ _ _ (proj2 (K _ _ A)) (proj2 (K _ _ B)))|]. intros v1 b A I. destruct (K _ _ A) as (N & A'). apply in_app_or in I as [I|[<-|[]]]; [exact (F _ _ A' I)|]. apply N. exact (U _ _ _ A' EA).
  - assert (forall u b, nth_error (put (views s) v None) u = Some (Some (View b true)) -> nth_error (views s) u = Some (Some (View b true))) as K.
    { intros u b. rewrite put_nth. destruct (Nat.eqb v u); [destruct (nth_error (views s) u); discriminate|]. auto. }
    split; [intros v1 w1 b A B; exact (U _ _ _ (K _ _ A) (K _ _ B))|intros v1 b A; exact (F _ _ (K _ _ A))].
Qed.
Lemma single_no_bad o s : single s -> step o s <> BadFree.
Proof.
  intros (W & U & F) H. destruct o as [|b|v|v|v w|v| |v|v]; cbn [step] in H; cases H.
  all: cbn [v_managed v_data] in *; subst; first [apply (F _ _ EA); apply freed_iff; assumption|pose proof (proj1 (proj1 W _ _ _ EA) eq_refl); congruence].
Qed.
Lemma single_start : single start.
Proof. split; [exact wf_start|]. unfold owns. split; [intros v w b A|intros v b A]; destruct v; discriminate. Qed.
Lemma careful_run : forall ops s, single s -> careful s ops -> run ops s <> BadFree.
Proof.
  induction ops as [|o t IH]; intros s S0 C; cbn [run]; [discriminate|]. inversion C as [|? ? ? C1 C2]; subst.
  pose proof (single_no_bad o s S0) as B. destruct (step o s) as [s1| | |] eqn:E; try discriminate; [|congruence].
  apply IH; [exact (single_step o s s1 S0 C1 E)|exact (C2 s1 eq_refl)].
Qed.
Lemma careful_ok ops : careful start ops -> run ops start <> BadFree.
Proof. apply careful_run. exact single_start. Qed.

(** ** leaks *)
Definition held (s : state) : Prop := forall b, nth_error (buffers s) b = Some Malloc -> In b (freed s) \/ exists v, owns s v b.
Lemma held_step o s s' : held s -> (forall v w, o = Assign v w -> forall b, ~ owns s v b) -> step o s = Done s' -> held s'.
Proof.
  intros I C H. unfold held, owns in *.
  destruct o as [|b|v|v|v w|v| |v|v]; cbn [step] in H; cases H; injection H as <-; unfold add_view; cbn [buffers freed views v_data v_managed] in *; sub_flag; intros q Q.
  - apply app_nth in Q as [Q|(_ & Q)]; [exact (I q Q)|discriminate].
  - destruct (I q Q) as [A|(u & A)]; [auto|right; exists u; apply app_old; exact A].
  - apply app_nth in Q as [Q|(E & Q)]; [destruct (I q Q) as [A|(u & A)]; [auto|right; exists u; apply app_old; exact A]|]. right. exists (length (views s)). subst q. apply app_new.
  - destruct (I q Q) as [A|(u & A)]; [auto|right; exists u; apply app_old; exact A].
  - destruct (I q Q) as [A|(u & A)]; [auto|right; exists u]. rewrite put_nth. destruct (Nat.eqb_spec v u) as [->|]; [|exact A]. exfalso. exact (C u w eq_refl q A).
  - destruct (I q Q) as [A|(u & A)]; [auto|right; exists u; apply app_old; exact A].
  - apply app_nth in Q as [Q|(E & Q)]; [|discriminate]. destruct (I q Q) as [A|(u & A)]; [auto|right; exists u; apply app_old; exact A].
  - exact (I q Q).
  - destruct (I q Q) as [A|(u & A)]; [left; apply in_or_app; auto|]. destruct (Nat.eqb_spec v u) as [->|N].
    + rewrite EA in A. injection A as ->. left. apply in_or_app. right. left. reflexivity.
    + right. exists u. rewrite put_nth. destruct (Nat.eqb_spec v u); [contradiction|exact A].
  - destruct (I q Q) as [A|(u & A)]; [auto|]. right. exists u. rewrite put_nth. destruct (Nat.eqb_spec v u) as [->|N]; [|exact A]. rewrite EA in A. discriminate.
Qed.
Lemma held_run : forall ops s s', held s -> keeps_owners s ops -> run ops s = Done s' -> held s'.
Proof.
  induction ops as [|o t IH]; intros s s' I K R; cbn [run] in R; [injection R as <-; exact I|]. inversion K as [|? ? ? K1 K2]; subst.
  destruct (step o s) as [s1| | |] eqn:E; try discriminate. exact (IH s1 s' (held_step o s s1 I K1 E) (K2 s1 eq_refl) R).
Qed.
Lemma all_released ops s : keeps_owners start ops -> run ops start = Done s -> (forall v b, ~ points_to s v b) ->
  forall b, nth_error (buffers s) b = Some Malloc -> In b (freed s).
Proof.
  intros K R N b B. destruct (held_run ops start s ltac:(intros q Q; destruct q; discriminate) K R b B) as [H|(v & H)]; [exact H|]. exfalso. apply (N v b). exists true. exact H.
Qed.
Definition orphan (b : nat) (s : state) : Prop := wf s /\ b < length (buffers s) /\ ~ In b (freed s) /\ forall v, ~ owns s v b.
Lemma orphan_step b o s s' : orphan b s -> step o s = Done s' -> orphan b s'.
Proof.
  intros (W & L & F & N) H. pose proof (wf_step o s s' W H) as W'. split; [exact W'|]. clear W'. unfold owns in *.
  destruct o as [|b0|v|v|v w|v| |v|v]; cbn [step] in H; cases H; injection H as <-; unfold add_view; cbn [buffers freed views v_data v_managed] in *; sub_flag; rewrite ?app_length; cbn [length]; (split; [lia|]).
  - auto.
  - split; [exact F|]. intros u A. apply app_nth in A as [A|(_ & A)]; [exact (N u A)|discriminate].
  - split; [exact F|]. intros u A. apply app_nth in A as [A|(_ & A)]; [exact (N u A)|]. injection A as ->. lia.
  - split; [exact F|]. intros u A. apply app_nth in A as [A|(_ & A)]; [exact (N u A)|]. injection A as <- <-. exact (N v EA).
  - split; [exact F|]. intros u A. rewrite put_nth in A. destruct (Nat.eqb v u); [|exact (N u A)]. destruct (nth_error (views s) u); [|discriminate]. injection A as -> ->. exact (N w EA0).
  - split; [exact F|]. intros u A. apply app_nth in A as [A|(_ & A)]; [exact (N u A)|discriminate].
  - split; [exact F|]. intros u A. apply app_nth in A as [A|(_ & A)]; [exact (N u A)|discriminate].
  - auto.
  - split; [|intros u A; rewrite put_nth in A; destruct (Nat.eqb v u); [destruct (nth_error (views s) u); discriminate|exact (N u A)]].
    intros I. apply in_app_or in I as [I|[->|[]]]; [exact (F I)|]. exact (N v EA).
  - split; [exact F|]. intros u A; rewrite put_nth in A; destruct (Nat.eqb v u); [destruct (nth_error (views s) u); discriminate|exact (N u A)].
Qed.
Lemma assign_leaks s v w b : reached s -> owns s v b -> ~ In b (freed s) -> (forall u, owns s u b -> u = v) -> w <> v ->
  forall ops s', run (Assign v w :: ops) s = Done s' -> ~ In b (freed s').
Proof.
  intros R O F U NE ops s' H. cbn [run] in H. destruct (step (Assign v w) s) as [s1| | |] eqn:E; try discriminate.
  assert (orphan b s1) as P.
  { pose proof (wf_reached s R) as W. split; [exact (wf_step _ _ _ W E)|]. cbn [step] in E. cases E. injection E as <-. unfold owns in *. cbn [buffers freed views] in *.
    split; [exact (in_range _ _ _ _ W O)|]. split; [exact F|]. intros u A. rewrite put_nth in A. destruct (Nat.eqb_spec v u) as [->|N].
    - destruct (nth_error (views s) u); [|discriminate]. injection A as -> ->. apply NE. exact (U w EA0).
    - apply N. symmetry. exact (U u A). }
  exact (proj1 (proj2 (proj2 (run_inv (orphan b) (orphan_step b) ops s1 s' P H)))).
Qed.

(** ** reads *)
Lemma release_free : forall ops s, freed s = [] -> no_release s ops -> run ops s <> DeadRead.
Proof.
  induction ops as [|o t IH]; intros s F K; cbn [run]; [discriminate|]. inversion K as [|? ? ? K1 K2]; subst.
  assert (forall b, is_freed s b = false) as NF by (intros b; apply freed_not; rewrite F; intros []).
  destruct (step o s) as [s1| | |] eqn:E; try discriminate.
  - apply IH; [|exact (K2 s1 eq_refl)]. destruct o as [|b|v|v|v w|v| |v|v]; cbn [step] in E; cases E; injection E as <-; unfold add_view; cbn [freed]; try exact F.
    exfalso. cbn [v_managed] in *. subst. exact (K1 v eq_refl _ EA).
  - exfalso. destruct o as [|b|v|v|v w|v| |v|v]; cbn [step] in E; cases E; rewrite NF in *; discriminate.
Qed.
Lemma no_dead_read ops : no_release start ops -> run ops start <> DeadRead.
Proof. apply release_free. reflexivity. Qed.
